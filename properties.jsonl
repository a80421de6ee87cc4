{"id": "C01", "title": "Compressed integers round-trip", "statement": "Writing any 32-bit unsigned integer with write_compressed_int and reading it back with read_compressed_int yields the same integer and leaves the reader exactly after the bytes written, whatever follows; the number of bytes equals compressed_int_len and is the minimal LEB128 length (1 to 5).", "quantifier": "every u32 value and every suffix of bytes", "why_tests_cant": "2^32 values times every possible continuation; the length boundaries are at powers of 128", "anchors": ["libs/common/src/io.rs: ReadExt::read_compressed_int, WriteExt::write_compressed_int, compressed_int_len"]}
{"id": "C02", "title": "C strings round-trip exactly when they contain no NUL", "statement": "Reading back a string written with write_cstring returns it and consumes exactly its bytes plus terminator if the string has no NUL byte; with a NUL byte, only the part before the first NUL is returned. A byte run that is not valid UTF-8 is read as the empty string.", "quantifier": "every byte string and every suffix", "why_tests_cant": "unbounded strings", "anchors": ["libs/common/src/io.rs: read_cstring, write_cstring"]}
{"id": "C03", "title": "A written PBO reads back identically", "statement": "For every archive built through the API, writing it with properties and opening the output yields the same properties in order (prefix first), and one header per file in case-insensitive name order with the recorded size, and each file opened by name has the bytes that were added.", "quantifier": "every finite set of properties and files with sizes that fit in 32 bits, and every hash iteration order of the file map", "why_tests_cant": "unbounded number and size of files; the file table order depends on a hash map", "anchors": ["libs/pbo/src/write.rs: WritablePbo::write, add_file, add_property", "libs/pbo/src/read.rs: ReadablePbo::from, file", "libs/pbo/src/model/header.rs"]}
{"id": "C04", "title": "The stored checksum authenticates exactly the preceding bytes", "statement": "The 20 bytes at the end of a written PBO are the SHA-1 of every byte before the separator byte, write returns the same digest, and recomputing the checksum from the opened archive (gen_checksum) gives the stored value for archives written with properties; for archives written without the property block the recomputation is over different bytes.", "quantifier": "every archive, every digest function in the place of SHA-1", "why_tests_cant": "universal over archive contents", "anchors": ["libs/pbo/src/write.rs: WritablePbo::write", "libs/pbo/src/read.rs: ReadablePbo::gen_checksum"]}
{"id": "C05", "title": "PBO output is independent of insertion order", "statement": "Two archives holding the same files and properties produce byte-identical output whatever order the files were added in and whatever order the hash map iterates, provided no two stored names are equal ignoring case; if two names differ only by case the output can depend on the iteration order.", "quantifier": "every pair of iteration orders of every file set", "why_tests_cant": "hash iteration order is randomised per process; a test sees one order", "anchors": ["libs/pbo/src/write.rs: files_sorted, write"]}
{"id": "C06", "title": "Opening a file in a PBO returns that file's own bytes", "statement": "In an opened archive, file(name) returns the byte range of the first header whose name matches case-insensitively, so every stored file whose name is unique ignoring case is returned with its own contents, and a name that matches no header returns nothing; a stored file shadowed by an earlier case-variant cannot be opened.", "quantifier": "every header table and every name", "why_tests_cant": "depends on all header tables, including hand-made ones with case variants", "anchors": ["libs/pbo/src/read.rs: ReadablePbo::file, header, file_offset"]}
{"id": "C07", "title": "Opening an archive never accepts trailing or missing data", "statement": "If ReadablePbo::from succeeds on a byte string then that string is exactly: header table, the concatenated bodies whose total length is the sum of the sizes in the table, one separator byte, 20 checksum bytes, and nothing more.", "quantifier": "every byte string offered as an archive", "why_tests_cant": "adversarial inputs are unbounded", "anchors": ["libs/pbo/src/read.rs: ReadablePbo::from"]}
{"id": "C08", "title": "A writable PBO behaves like a map from normalised names to the last content added", "statement": "After any sequence of add_file, add_file_with_header, add_property and remove_property calls, looking up a file by any spelling of its path separators gives the most recently accepted content for that path, and each property has its last value with leading and trailing backslashes trimmed.", "quantifier": "every finite history of calls", "why_tests_cant": "histories are unbounded", "anchors": ["libs/pbo/src/write.rs: WritablePbo::add_file, add_file_with_header, file, add_property, remove_property, property"]}
{"id": "C09", "title": "Key and signature files round-trip", "statement": "Reading the bytes written for a private key, a public key or a signature returns the same key or signature, for every key whose numbers fit the fields the declared length gives them.", "quantifier": "every authority name without NUL, every bit length and all field values within size", "why_tests_cant": "unbounded integers", "anchors": ["libs/signing/src/private.rs: write_danger, read", "libs/signing/src/public.rs: write, read", "libs/signing/src/signature.rs: write, read"]}
{"id": "C10", "title": "Signing then verifying always succeeds", "statement": "For every RSA key pair (distinct primes p, q, n = p*q of the declared bit length, e*d = 1 modulo p-1 and modulo q-1) and every sorted archive that can be signed, verifying the signature produced by sign with the corresponding public key succeeds, for version 2 and version 3 signatures; and every archive built through the API with at least one file, no two paths equal ignoring case, can be signed.", "quantifier": "every valid RSA key of at least 304 bits, every archive, both signature versions, every digest function with 20 byte output", "why_tests_cant": "keys and archives are unbounded; relies on Fermat's little theorem", "anchors": ["libs/signing/src/private.rs: BIPrivateKey::sign", "libs/signing/src/public.rs: BIPublicKey::verify", "libs/signing/src/lib.rs: pad_hash, generate_hashes"]}
{"id": "C11", "title": "A successful verification pins the archive's digests, but not the key", "statement": "If verify returns Ok then the archive is sorted, the authority names agree, and the padded digests of this archive equal the signature values raised to the signature's own exponent modulo the signature's own modulus; one signature accepts two different built archives only if two byte strings collide under SHA-1. The public key's modulus and exponent are never consulted, so anyone who knows only the authority name can make a signature that verifies.", "quantifier": "every public key, signature and archive", "why_tests_cant": "a negative security property ranges over all forged signatures", "anchors": ["libs/signing/src/public.rs: BIPublicKey::verify", "libs/signing/src/signature.rs: signatures_modpow"]}
{"id": "C12", "title": "Rapified configs decode to the same tree", "statement": "For every config tree without parse-error nodes, the rapified file, read by the published raP format (following the stored class offsets), yields the same tree: same class nesting, names, parents, external and delete markers, values and array nesting, in the same order; so two different trees never give the same file. A NUL inside a string breaks this.", "quantifier": "every finite config tree whose strings and names contain no NUL and whose encoding is shorter than 4 GiB", "why_tests_cant": "trees of unbounded depth and width; offsets are computed before the bytes exist", "anchors": ["libs/config/src/rapify/config.rs", "libs/config/src/rapify/class.rs", "libs/config/src/rapify/array.rs", "libs/config/src/rapify/value.rs"]}
{"id": "C13", "title": "Predicted rapified lengths are exact", "statement": "For every config tree without parse-error nodes the number of bytes written equals rapified_length, so no internal length assertion can fire and every stored class offset is the position of that class's body in the file. A tree with a parse-error node always panics.", "quantifier": "every finite config tree", "why_tests_cant": "assertions guard every node of an unbounded tree", "anchors": ["libs/config/src/rapify/*.rs: rapify, rapified_length"]}
{"id": "C14", "title": "Config strings survive quoting", "statement": "A string literal written in config syntax with every double quote doubled parses to exactly the original string, and the parser stops right after the closing quote; several segments joined by \\n parse to the segments joined by line breaks. The only text lost is a backslash directly before a line break, together with that line break (also one that joins two segments).", "quantifier": "every string, every list of segments, every white space around \\n and every following text that does not continue the literal", "why_tests_cant": "unbounded strings; quote runs of every length", "anchors": ["libs/config/src/parse/str.rs: string"]}
{"id": "C15", "title": "Config integers parse to their value or to the next wider type", "statement": "A decimal or hexadecimal integer literal in a config parses to an Int32 with its exact value when its magnitude is below 2^31 and to an Int64 with its exact value when its magnitude is below 2^63; the sign is applied exactly; larger decimal literals are rejected. At the edges -2147483648 becomes an Int64, -9223372036854775808 is rejected, and a larger hexadecimal literal is read as 0 with its tail left over.", "quantifier": "every integer literal of any length", "why_tests_cant": "boundary values and overlong digits", "anchors": ["libs/config/src/parse/number.rs: number, number_hex, number_int"]}
{"id": "C16", "title": "LZO decompression inverts compression", "statement": "For every input shorter than 2^63 bytes, compressing into a buffer of at least worst_compress bytes and decompressing the result into a buffer at least as large as the input succeeds and returns exactly the input.", "quantifier": "every byte string of every length, every buffer size at least the input length", "why_tests_cant": "match lengths, offsets, literal-run encodings and block boundaries combine without bound", "anchors": ["libs/lzo/src/compress.rs: lzo1x_1_compress, lzo1x_1_do_compress", "libs/lzo/src/decompress.rs: lzo1x_decompress_safe"]}
{"id": "C17", "title": "worst_compress bounds the compressed size", "statement": "For every input shorter than 2^63 bytes the compressed output is no longer than worst_compress of its length, and a buffer of that capacity is never written past (including the copies that write more bytes than they keep); compress itself performs no capacity check, so a smaller buffer is overrun.", "quantifier": "every input", "why_tests_cant": "worst cases are adversarial", "anchors": ["libs/lzo/src/lib.rs: worst_compress, compress", "libs/lzo/src/compress.rs"]}
{"id": "C18", "title": "LZO decompression is memory safe on arbitrary input", "statement": "For every byte string and every output buffer size, decompression terminates, reads only inside the input, reads back only bytes already written, and never writes past the output buffer; it returns success or one of the documented errors.", "quantifier": "every byte string and every capacity", "why_tests_cant": "adversarial inputs are unbounded", "anchors": ["libs/lzo/src/decompress.rs: lzo1x_decompress_safe"]}
{"id": "C19", "title": "Constant arithmetic follows precedence and associativity", "statement": "For every well-formed arithmetic expression (numbers, + - * / % ^, parentheses), the evaluator used for config math returns the value obtained by the usual grammar: ^ binds tightest and to the right, then * / %, then + -, left to right.", "quantifier": "every finite expression over any arithmetic", "why_tests_cant": "expressions of unbounded depth", "anchors": ["libs/common/src/math.rs: eval, shunting_yard, evaluate_postfix"]}
{"id": "C20", "title": "Version text round-trips", "statement": "A text is accepted as a version exactly when it is three dot-separated u32 components, optionally a fourth (further ones are ignored), optionally a dash and a hash (further dash parts are ignored), and the parsed version has exactly those values. Parsing the display form of a version returns the same version exactly when its hash, if any, contains no dash.", "quantifier": "every version value", "why_tests_cant": "unbounded numbers and suffixes", "anchors": ["libs/common/src/version.rs: Version::try_from, Display"]}
{"id": "C21", "title": "Version comparison is a total preorder that ignores the hash", "statement": "Version comparison is reflexive, transitive, total and antisymmetric up to the hash suffix, orders by major, minor, patch and then build with a missing build lowest; two versions that differ only in the hash compare equal without being equal.", "quantifier": "every triple of versions", "why_tests_cant": "order laws quantify over triples", "anchors": ["libs/common/src/version.rs: partial_cmp"]}
{"id": "C22", "title": "Addon prefixes are normalised and stable", "statement": "An accepted prefix has at least one part, contains no forward slash or line break and does not start with a backslash; parsing its display form yields the same prefix again exactly when it is non-empty and contains no equals sign.", "quantifier": "every prefix file content", "why_tests_cant": "unbounded file contents", "anchors": ["libs/common/src/prefix.rs: Prefix::new"]}
{"id": "C23", "title": "Conditional directives select exactly the branches a block reading selects", "statement": "For every properly nested file the preprocessor's output is that of reading the file as nested blocks: a branch whose condition holds is run in place, a branch whose condition does not hold is skipped with everything in it, text lines are macro-expanded, #define and #undef change the macros for what follows, and at the end no block is open. When all conditions are #ifdef or #ifndef and the text uses no macro, the output is exactly the concatenation of the lines whose enclosing branches are all taken. While some enclosing branch is not taken, no line of any content writes output or changes macros, files, warnings or pragmas (other than the end-of-line clearing of line-scoped suppressions).", "quantifier": "every properly nested file of any nesting depth, every macro environment, every amount of fuel above some bound; for skipped lines every preprocessor state and every line", "why_tests_cant": "unbounded nesting; the code tracks a flat stack with an extra did_else flag", "anchors": ["libs/preprocessor/src/ifstate.rs: IfStates", "libs/preprocessor/src/processor/directives.rs", "libs/preprocessor/src/processor/mod.rs: run, file, line, skip_to_after_newline"]}
{"id": "C24", "title": "Repeated and stray #else and #endif", "statement": "A second #else in the same block is rejected with an error whenever the else branch before it contains no block and no include. An #endif without an open block is ignored. An #else without an open block panics in a build with overflow checks. (When the else branch contains a nested block, a second #else is accepted and both else branches are written; without overflow checks a stray #else passes and a second one panics: refuted witnesses.)", "quantifier": "every file of the given shape: every well nested text before, every condition, every branch contents", "why_tests_cant": "histories of directives are unbounded", "anchors": ["libs/preprocessor/src/ifstate.rs: push, flip, pop", "libs/preprocessor/src/processor/directives.rs: directive_else, directive_endif"]}
{"id": "C25", "title": "A macro call substitutes all arguments at once and leaves the macro table as it was", "statement": "Calling a function-like macro with arguments without macros writes the macro's body with every parameter replaced by its argument, simultaneously, `##` and comments removed and everything else unchanged; an argument is not scanned again for parameters. After every successful call the macros and the open calls are exactly those after reading the arguments.", "quantifier": "every macro definition, every argument list, every file text before it; for the table: every preprocessor state and token stream", "why_tests_cant": "unbounded call depth and histories", "anchors": ["libs/preprocessor/src/defines.rs: Defines", "libs/preprocessor/src/processor/defines.rs: define_use, call_read_args"]}
{"id": "C26", "title": "Pragma suppressions never leak past their scope", "statement": "After a line that is not a directive no line-scoped suppression is in force. An included file starts with exactly what was set for the whole config, and after the include the includer has exactly the suppressions and flags it had before. Within one file a suppression of file or config scope stays in force or is widened. (Line-scoped flags, unlike suppressions, are never cleared: refuted witness.)", "quantifier": "every sequence of lines, pragmas and includes, every preprocessor state", "why_tests_cant": "histories are unbounded", "anchors": ["libs/preprocessor/src/processor/pragma.rs: Pragma", "libs/preprocessor/src/processor/directives.rs: directive_pragma, directive_include", "libs/preprocessor/src/processor/mod.rs: line"]}
{"id": "C27", "title": "Compiled SQF computes what the source says", "statement": "For every SQF program that compiles (text below 4 GiB, at most 65536 pooled constants), looking up every index of the compiled script yields the program in postfix order, each operation with its name in lower case and its source place; running that on a stack machine performs the same command calls, variable reads and assignments with the same operands as evaluating the program's syntax tree left to right, and leaves one value per expression.", "quantifier": "every syntax tree, every interpretation of the commands", "why_tests_cant": "unbounded programs; constants are pooled and de-duplicated", "anchors": ["libs/sqf/src/compiler/mod.rs: Statements::compile, compile_instructions, push_constant"]}
{"id": "C28", "title": "Compiled SQF indices are always in range", "statement": "In every successfully compiled script each constant, name and file index used by an instruction is in range and refers to an earlier constant, and the entry point is the last pool entry, the code of the whole script, whose source is the script's text. The one exception is a pool of exactly 65537 constants, where the 16 bit entry point wraps to 0.", "quantifier": "every program that compiles", "why_tests_cant": "pool sizes are unbounded; indices are 16 bit", "anchors": ["libs/sqf/src/compiler/mod.rs: Context::add_constant, add_name, Compiled"]}
{"id": "C29", "title": "The SQFC file is uniquely decodable", "statement": "The serialised form of a compiled script determines the script: a reader of the published layout recovers every constant, instruction, name, source reference and the entry point (a shared constant array reads as an array), and the script read back is the compiled program. Writing a compiled script fails only because a part is too large, never over an index. The exceptions are blocks of 2^31 bytes or more, whose length loses its top bit, and the code's own unused reader, which takes an offset for an index.", "quantifier": "every compiled script, with any nesting of arrays and code", "why_tests_cant": "unbounded nesting of arrays and code", "anchors": ["libs/sqf/src/compiler/serializer/mod.rs"]}
{"id": "C30", "title": "The SQF optimiser preserves meaning", "statement": "Optimising a script does not change what it computes: in every interpretation of the commands (any values, any world, code blocks as values that commands may run) that gives the folded arithmetic, case and string commands their documented results, in which nothing rebinds `_this`, the array made by `else` is not changed, and params, param, getVariable, setVariable, getOrDefault, random, positionCameraToWorld and the vector commands only look at their array argument, the script and the optimised script started in corresponding worlds both abort, or both end with corresponding values and worlds; the text and place of the script are kept. (Where `_this` can be assigned, or the array of an `else` changed, the results differ: refuted witnesses.)", "quantifier": "every script the optimiser returns on, every such interpretation, every pair of corresponding start worlds, every depth of nested calls", "why_tests_cant": "unbounded trees; rewrite rules interact; the command interpretation is arbitrary", "anchors": ["libs/sqf/src/compiler/optimizer/mod.rs: optimize, get_consumable_array, is_not_array_default_value, op_uni_string, op_uni_float, op_bin_string, op_bin_float"]}
{"id": "C31", "title": "The SQF optimiser never fails", "statement": "Optimising terminates without panicking on every script in which no array expression has `{..} else {..}` as an element; `params [{} else {}]` reaches an unreachable!() and aborts (refuted witness).", "quantifier": "every syntax tree", "why_tests_cant": "needs an invariant over all rewritten trees", "anchors": ["libs/sqf/src/compiler/optimizer/mod.rs: Expression::is_constant, get_consumable_array"]}
{"id": "C32", "title": "SQF parses by the documented precedence", "statement": "For every set of commands in which no binary command has the name of a word operator (or, and, else, max, min, mod, atan2), the parser accepts exactly the token sequences of the SQF grammar and returns the one tree they spell: unary operators bind tightest, then # ^ */% +- else, named commands, comparisons, && and ||; equal precedence groups to the left; brackets, arrays, code blocks, assignments and `private` assignments nest arbitrarily; every node has the extent of its tokens. A project's own binary command called e.g. `or` breaks this: `1 or 2 == 3` then groups as `(1 or 2) == 3` (refuted witness).", "quantifier": "every command database, every token sequence, every nesting depth", "why_tests_cant": "unbounded sequences over ten precedence levels and unbounded nesting; rejecting every other sequence cannot be tested", "anchors": ["libs/sqf/src/parser/mod.rs: run_for_tokens, statements, apply_binary_command", "libs/sqf/src/parser/database/mod.rs: Database::a3, a3_with_workspace"]}
{"id": "C33", "title": "Output positions map back to the token that produced them", "statement": "Every character of the preprocessed text was written by one item of the preprocessor output (a token or a macro use); the mapping returned for its offset is that item's: its place, its file (read once, listed once), whether it is a macro use, and the offset, line and column at which the item's text begins. The text is the tokens' texts in order, '##' left out outside strings; cutting a span cuts by characters; a diagnostic's label runs from the start of the item at the span's first character to the start of the item at its end. (The end stored in an ordinary mapping is too far by the token's length, so the list of all mappings may hold tokens that end before the offset; a label that ends in another file, one at the end of a text with multi-byte characters, and one in an empty text are wrong: refuted witnesses.)", "quantifier": "every output of the preprocessor, every readable set of files, every offset", "why_tests_cant": "unbounded outputs; token ends are recorded too far right", "anchors": ["libs/workspace/src/reporting/processed.rs: append_token, append_output, mappings, mapping"]}
{"id": "C34", "title": "Line and column computations agree with the text", "statement": "LineCol::from_content of any offset gives the number of newlines before it plus one and the distance from the last newline plus one. In a text without CRLF the line table used for reports gives every line its byte range and every byte of it its line number; bytes past the end belong to the last line and no other line exists. (With CRLF the table slips by one byte a line and an empty file panics: refuted witnesses.)", "quantifier": "every text, every offset, every line number", "why_tests_cant": "unbounded texts", "anchors": ["libs/workspace/src/position.rs: from_content", "libs/workspace/src/reporting/files.rs"]}
{"id": "C35", "title": "P3D models round-trip", "statement": "An MLOD model is written exactly when every face has three or four vertices and every count and tag fits 32 bits. Reading what was written gives back the same points, normals, faces, tags and resolutions when texture, material and tag names contain no NUL and no tag is named like the end marker; a tag with the marker's name (#EndOfFile#) is lost with all after it. Every model that can be read can be written, and then reads back as it was.", "quantifier": "every model within 32 bit counts", "why_tests_cant": "unbounded models", "anchors": ["libs/p3d/src/lib.rs", "libs/p3d/src/lod.rs", "libs/p3d/src/face.rs", "libs/p3d/src/point.rs", "libs/p3d/src/vertex.rs"]}
{"id": "C36", "title": "PAA files written are readable and keep the image", "statement": "A non-empty image whose coded data is shorter than 2^24 bytes is written, and reads back as one DXT5 map with the coded data, the image's height (below 65536) and width (below 32768), the floor average and the maximum of every channel. Writing panics exactly for an empty image and for 2^24 bytes of data or more (so for 4096 by 4096); wider images are misread as compressed and narrower. Reading panics only for formats other than DXT1, DXT3 and DXT5.", "quantifier": "every image size and every encoded data", "why_tests_cant": "boundaries of 15, 16 and 24 bit fields", "anchors": ["libs/paa/src/paa.rs: read, write", "libs/paa/src/mipmap.rs", "libs/paa/src/pax.rs"]}
{"id": "C37", "title": "The build stops at the first failing phase", "statement": "For every list of modules and every stage plan, a module phase or build step runs only if every earlier step succeeded without an error-level code; the steps run in the order in which they were requested, each module once per phase; the final report holds exactly the codes of the steps that ran. The exit status is zero only if every step ran and none reported an error, and a release archive is made only after every check, build, pre-release (signing) phase of every module passed. A release is signed exactly if the project enables signing and it is not declined, archived exactly if archiving is enabled and not declined; no other command signs or archives, and a check builds nothing. In check, build, release and dev, whatever the flags, no module but the check for byte order marks does anything in a stage before the project's hooks of that stage have run without an error, so a hook sees the files before they are compiled, converted, copied or signed.", "quantifier": "every module list, every behaviour of the modules, every stage plan", "why_tests_cant": "module behaviour is arbitrary", "anchors": ["bin/src/executor.rs: Executor::run, run_modules", "bin/src/report.rs", "bin/src/commands/{build,check,dev,release}.rs"]}
{"id": "C38", "title": "Accepted lint settings cannot disable or weaken mandatory lints", "statement": "A lint configuration is accepted exactly if every override keeps its lint within its bounds (a lint with minimum severity error stays enabled, no lint goes below its minimum severity) and no grouped lint has the name of another lint. In a later run exactly the enabled lints run, each with the configured severity and its options laid over the defaults, so accepted settings cannot disable or weaken a mandatory lint. Which of HEMTT's own lints cannot be lowered or switched off is a fixed list of names; every other name takes any severity. The stringtable check is an exception: it checks the stringtable lints against the SQF settings. Two lints in one list may share a name.", "quantifier": "every lint set and override map", "why_tests_cant": "all combinations of overrides", "anchors": ["libs/workspace/src/lint/mod.rs: LintManager", "libs/common/src/config/project/lint.rs", "bin/src/modules/stringtables/mod.rs: check"]}
{"id": "C39", "title": "Accepted addon sets have no clashing names", "statement": "If scanning addons succeeds then the addons are exactly the directories of the two folders, in order, and no two have names equal ignoring case, whether in one folder or in both; if every addon loads by itself, scanning succeeds exactly when there is no such clash.", "quantifier": "every directory listing", "why_tests_cant": "all sets of directories", "anchors": ["libs/workspace/src/addons.rs: Addon::scan"]}
{"id": "C40", "title": "Distinct addons build to distinct PBO files", "statement": "Within one build, two different addons are written to different paths, even on file systems that ignore case, whenever neither the addon names nor the project's prefix contain a dot; names with a dot can collide because the part after the last dot is replaced by the extension, and a dotted project prefix makes all addons collide.", "quantifier": "every pair of addons, every layout option", "why_tests_cant": "all names", "anchors": ["bin/src/modules/pbo.rs: internal_build", "libs/workspace/src/addons.rs: pbo_name"]}
{"id": "C41", "title": "Sorting a stringtable only reorders it", "statement": "Sorting a stringtable keeps the same packages, keys and containers (as multisets, each key untouched, keys of one name in their order), leaves the packages in the order of their names and the keys of every package and container in the order of their IDs; a sorted table is unchanged, so sorting again changes nothing. Containers themselves are not put in order, though the help of the command says so.", "quantifier": "every stringtable", "why_tests_cant": "unbounded tables, nested containers", "anchors": ["libs/stringtable/src/lib.rs: Project::sort", "libs/stringtable/src/package.rs: Package::sort", "bin/src/commands/localization/sort.rs"]}
{"id": "C42", "title": "Translation totals and the coverage report count every key once", "statement": "For every package the totals equal, per language, the number of keys anywhere in the package or its containers that have that language; no language exceeds the total, and equals it exactly if every key has it. The coverage report has a row for every language some key has, with these numbers summed over all packages, and lists an addon once for each of its packages that has a gap.", "quantifier": "every nested package", "why_tests_cant": "unbounded nesting", "anchors": ["libs/stringtable/src/package.rs: totals", "libs/stringtable/src/totals.rs", "bin/src/commands/localization/coverage.rs: coverage"]}
{"id": "C43", "title": "Fixing command case changes nothing but letter case", "statement": "The SQF case fixer's output equals its input up to the case of ASCII letters, for every file. In a file made of words, double-quoted strings, comments and other characters only words change: each known command outside the first argument of an upper-case macro gets its usual spelling, and strings and comments stay. Single-quoted strings and comments that begin /*/ are not recognised, and a second run may change more.", "quantifier": "every file content and every command table whose entries match their key ignoring case", "why_tests_cant": "unbounded files", "anchors": ["bin/src/utils/sqf/case.rs: file, check_buffer"]}
{"id": "C44", "title": "Version macros in script_version files", "statement": "Reading a version from a script_version file succeeds exactly when MAJOR, MINOR and PATCH are defined, and each component is the last space-separated word, before any // comment, of the first line that starts with #define followed by its name; a longer name that merely starts with the component name is taken if it comes first.", "quantifier": "every file content", "why_tests_cant": "file contents are unbounded; line order, comments and white space vary freely", "anchors": ["libs/common/src/version.rs: Version::try_from_script_version, extract_version"]}
{"id": "C45", "title": "Config text parses to the tree it says", "statement": "Every config text made of classes (with or without parent, external), delete statements, value entries, array entries and array appends, with arbitrary white space between tokens, parses completely and without error to exactly the tree it describes, so no text has two readings. Two slips are understood as what they are, for the checks to report, and what follows them is kept: a class with a parent but no braces, and a class with no semicolon after its braces. The exceptions: a number followed by a space is replaced by the result of evaluating it as an expression (1.0 becomes the integer 1), __EVAL without parentheses panics, and a missing = after [] is not noticed.", "quantifier": "every text of the config grammar: any nesting depth, any number of properties and items, any names, strings, numbers and white space", "why_tests_cant": "unbounded nesting and every placement of white space; keywords can also be names", "anchors": ["libs/config/src/parse/mod.rs: config", "libs/config/src/parse/property.rs: property", "libs/config/src/parse/array.rs: array", "libs/config/src/parse/value.rs: value, math, eval", "libs/config/src/parse/ident.rs", "libs/config/src/parse/str.rs", "libs/config/src/parse/number.rs"]}
{"id": "C46", "title": "The lexer loses nothing but comments", "statement": "Splitting a source text into tokens always ends, with tokens or a parse error. The tokens' texts put together are the source with its comments removed: block comments wherever they stand outside strings, line comments up to the end of the line, and comments inside strings kept as text. Names are never cut: a word token begins with a letter or underscore, continues with letters, digits and underscores, and what follows it in the source is none of these. (A block comment opened inside a line comment ends that line comment only where it is closed: refuted witness.)", "quantifier": "every source text (any sequence of code points), every Unicode letter classification that agrees with ASCII", "why_tests_cant": "inputs are unbounded and interactions of quotes, comments and line ends are combinatorial", "anchors": ["libs/preprocessor/src/parse/mod.rs: parse", "libs/preprocessor/src/parse/config.pest"]}
{"id": "C47", "title": "Tokens know where they stand", "statement": "Every token carries the path and the byte offset of its place in the source; its line is one more than the number of line breaks before it if the source has no block comment or no string, and its column is the number of bytes since the last line break if the source has no comments and no single quotes. (Outside those conditions lines and columns are wrong: refuted witnesses.)", "quantifier": "every source text and every token of it", "why_tests_cant": "inputs are unbounded; error messages, mappings and lints all rely on these positions", "anchors": ["libs/preprocessor/src/parse/mod.rs: parse, get_line_col"]}
{"id": "C48", "title": "Text without preprocessor syntax passes unchanged", "statement": "A file that contains no '#', no two adjacent underscores and, apart from comments, no backslash directly before a line break is preprocessed to exactly its own text with the comments removed.", "quantifier": "every such file, of any length", "why_tests_cant": "all texts", "anchors": ["libs/preprocessor/src/lib.rs", "libs/preprocessor/src/processor/mod.rs: run", "libs/preprocessor/src/parse/mod.rs: parse"]}
{"id": "C49", "title": "An include stands for the included file's lines", "statement": "An #include line is replaced by the output of the included file, run with the macros in force at that line; the includer continues with the macros the included file leaves. Holds at every depth of includes.", "quantifier": "every file, include line, included file and continuation, every depth of nested includes", "why_tests_cant": "unbounded include depth and macro histories", "anchors": ["libs/preprocessor/src/processor/directives.rs: directive_include", "libs/preprocessor/src/processor/mod.rs: file"]}
{"id": "C50", "title": "Preprocessing ends when no macro or include leads back to itself", "statement": "If macros can be numbered so that every macro's body (outside double quotes) names only words with smaller numbers, no macro body holds a directive, and files can be numbered so that every file includes only files with smaller numbers, then preprocessing ends with a result, an error or a panic, whatever the files contain otherwise, and more time does not change the outcome. Without this it need not end: two macros whose bodies are each other's names, used once, and a file that includes itself make the preprocessor recurse without end, and no number of steps gives a result.", "quantifier": "every set of files and tokens, every numbering, every number of steps; for the converse every pair of mutually recursive macros and every self-including file", "why_tests_cant": "a non-terminating run never finishes a test, and no finite run shows that none ends", "anchors": ["libs/preprocessor/src/processor/defines.rs: define_use", "libs/preprocessor/src/processor/directives.rs: directive_include"]}
{"id": "C51", "title": "A signature covers the archive, its names, its hashed files and its prefix", "statement": "The numbers verified (and signed) for an archive built through the API are, padded as in PKCS #1: the archive's digest; the digest of that digest, the digest of the lower-cased names of its non-empty files in order, and the prefix with one trailing backslash; and the digest of the digest of the contents of its files with one of the version's extensions (a fixed word if there are none), the names digest and the prefix. For archives made elsewhere the same holds with the archive's own entries.", "quantifier": "every archive, both signature versions, every key of at least 304 bits, every 20 byte digest function", "why_tests_cant": "archives are unbounded; a digest that leaves something out is only visible on the input where it matters", "anchors": ["libs/signing/src/lib.rs: generate_hashes, pad_hash", "libs/common/src/sign_version.rs", "libs/pbo/src/read.rs: hash_filenames, hash_files"]}
{"id": "C52", "title": "An LZO stream ends itself", "statement": "If a byte string decompresses, then the same string followed by anything is refused as not consumed, whatever the output buffer: no valid stream is a proper beginning of another, so a reader can find the end of compressed data that is followed by other data.", "quantifier": "every stream, buffer size and non-empty continuation", "why_tests_cant": "unbounded streams and continuations", "anchors": ["libs/lzo/src/decompress.rs: lzo1x_decompress_safe"]}
{"id": "C53", "title": "Empty statements and comments do not change an SQF script", "statement": "Adding a `;` at the start of a script, after another `;` or after `{`, or a comment anywhere between tokens, does not change the parse; and no other token is ever discarded before parsing.", "quantifier": "every token sequence and every place in it", "why_tests_cant": "all positions in unbounded token sequences", "anchors": ["libs/sqf/src/parser/lexer.rs: strip_comments, strip_noop", "libs/sqf/src/parser/mod.rs: run"]}
{"id": "C54", "title": "Signing signs the PBO that was built", "statement": "For every addon and every layout option, the signing step opens exactly the path to which the build step wrote that addon's PBO, writes the signature beside it with the PBO's name followed by the key's name and .bisign, and stores the public key of that name in the keys folder of the same mod.", "quantifier": "every addon name, location, project prefix, version and layout option", "why_tests_cant": "names are arbitrary, with dots in any place", "anchors": ["bin/src/modules/pbo.rs: target_pbo", "bin/src/modules/sign.rs: Sign::pre_release"]}
{"id": "C55", "title": "Rewriting a stringtable keeps the translations", "statement": "A translation read from a stringtable file and written back is the same text, entities included, except that a plain > becomes its entity; a second rewrite changes nothing. Text of a CDATA section without < and names without & read, in what was written, as they did, and a name never ends its attribute early. CDATA text with < is escaped twice, and an & in a package name or key ID is written without its entity.", "quantifier": "every text", "why_tests_cant": "all texts with any mixture of entities", "anchors": ["libs/stringtable/src/lib.rs: from_reader, to_writer", "libs/stringtable/src/key.rs: min_escape"]}
{"id": "C56", "title": "An addon's PBO holds exactly the addon's files, each under its own path, with the documented properties", "statement": "For every addon folder whose file and folder names are non-empty, NUL-free and contain no path separator, and every configuration: if building the addon's PBO succeeds, the written file opens again, and it holds exactly one entry per file of the addon that is not a config.cpp with a config.bin beside it, not an addon.toml, not matched by a project exclude pattern (against the path from the project root) or an addon exclude pattern (against the path below the addon), and not a prefix file; the entry is named by the path below the addon with backslashes and opening it yields that file's bytes (when no other packed file equals it ignoring case). Its properties are exactly: the addon's own properties, else the project's, else the prefix of the last prefix file of the walk, the git hash when there is a prefix file, the version and the HEMTT version; values lose leading and trailing backslashes. The build succeeds whenever every pattern is valid, every prefix file read has a valid prefix and every packed file is below 4 GiB. Limits: a prefix file in a subfolder is also dropped and replaces the addon's prefix; a property with an empty key yields a PBO that does not open.", "quantifier": "all folder listings (any number, depth and content of files), all exclude patterns and pattern matchers, all property tables, prefix files, versions, hash-map iteration orders and lowercase functions", "why_tests_cant": "Which files are packed depends on the interplay of listing, patterns, neighbouring files and names; a test fixes one small folder.", "anchors": ["bin/src/modules/pbo.rs:internal_build", "libs/common/src/prefix.rs:FILES", "libs/workspace/src/path.rs:WorkspacePath::walk_dir", "libs/pbo/src/write.rs:WritablePbo"]}
{"id": "C57", "title": "LZO decompression accepts exactly the LZO1X stream format and expands it as the format says", "statement": "For every byte string below 2^56 bytes and every output buffer size: decompression succeeds with some output exactly when the bytes are a well-formed LZO1X stream (optional initial literal run, literal runs and the five kinds of back-references with their length, distance and trailing-literal fields, the end marker and nothing after it) whose expansion is that output and fits the buffer.", "quantifier": "all byte strings below 2^56 bytes (also streams no HEMTT compressor would produce), all output buffer sizes", "why_tests_cant": "Streams made by other compressors use instruction kinds and lengths HEMTT's own compressor never emits; tests only round-trip a few textures.", "anchors": ["libs/lzo/src/decompress.rs:lzo1x_decompress_safe", "libs/lzo/src/lib.rs:decompress_to_slice"]}
{"id": "C58", "title": "Malformed directives are rejected", "statement": "Every line that opens a conditional block either is a condition with a definite truth value - #ifdef/#ifndef of one name; #if of one macro with a value, true exactly when the value is 1; or a comparison of two operands by ==, !=, <, <=, >, >=, ordering only between numbers, where a single macro name stands for its value - or is malformed. A malformed directive that is reached (after any well-formed text, inside any nesting of taken branches and included files) fails the whole file with the diagnostic for that fault: unknown directives, missing or wrong names, trailing tokens, redefining a built-in, broken parameter lists, unquoted, unclosed or unresolvable includes, #if of an undefined name or of a macro without a value, missing operands, unknown operators, ordering of non-numbers.", "quantifier": "every token sequence before and after the line, every nesting of taken branches and includes, every macro table the preceding text can build", "why_tests_cant": "the macro table, nesting depth, includes and following text are unbounded", "anchors": ["libs/preprocessor/src/processor/directives.rs: directive_command, directive_if, directive_ifdef, directive_define, directive_undef, directive_include", "libs/preprocessor/src/processor/defines.rs: define_read_args"]}
{"id": "C59", "title": "Every SQF text has at most one reading as tokens, and the lexer finds it", "statement": "A preprocessed SQF text is cut into tokens exactly if it can be written as white space and tokens (block and line comments, operators, brackets and separators, names, strings between quotes with that quote doubled inside, whole, hexadecimal and decimal numbers) where no number, name or string touches another, each operator is the longest that can be read at its place and does not start a comment, and a line comment runs to the end of its line; the tokens and their places are then those, there is only one such reading, everything outside the places is white space, every string written with doubled quotes is read as itself, and tokens written apart are read as themselves. Two cases of the boundary: a block comment that nothing closes is read as a division and a multiplication, and a whole number of 2^32 or more is no token.", "quantifier": "every text (every sequence of code points) and every token list; every conversion of decimal texts and whole numbers to f32", "why_tests_cant": "The lexer is an ordered choice of patterns; that no text has a second reading, or a reading the order of the choices misses, is a statement about all texts.", "anchors": ["libs/sqf/src/parser/lexer.rs: run, lexer, base_lexer, number, identifier, string, comment"]}
{"id": "C60", "title": "An SQF text is read as the script its tokens spell, whatever its layout, and blocks keep their own text", "statement": "Reading a preprocessed SQF text succeeds with a script exactly if the text is written as tokens that, without comments and empty statements, spell that script in the SQF grammar. Two texts with the same such tokens give the same tree but for places. The text kept with a block of code that is not empty is within the text, is taken out without a panic, and read alone gives the block's statements. (An empty block keeps the text \"}\" instead, which is no script.)", "quantifier": "every text; every wiki and every project command list that defines no word operator; every block at any depth of any script", "why_tests_cant": "Layout, comments and nesting can be combined without end, and the text of a block is cut out by places that come from tokens kept after others were dropped.", "anchors": ["libs/sqf/src/parser/mod.rs: run, run_for_tokens, statements", "libs/sqf/src/lib.rs: Statements::source", "libs/workspace/src/reporting/processed.rs: extract"]}
{"id": "C61", "title": "The text shown for an SQF expression reads as that expression", "statement": "For every expression at any depth of any script that was read, whose strings (outside blocks) do not hold their own quote, whose numbers (outside blocks) are shown as texts that read as the same number, and whose outermost blocks are not empty, the text given by Expression::source is a script of one statement which is that expression, but for places; so two such expressions shown alike are alike. Outside these conditions it fails: a string 'a''+''b' is shown as a sum of two strings, a number of 2^32 or more as a text that does not read, and an empty block with a brace too many.", "quantifier": "every script text, every expression in it, every f32 printing function", "why_tests_cant": "Whether brackets are put where they are needed depends on every combination of operators and operands at every depth.", "anchors": ["libs/sqf/src/lib.rs: Expression::source, is_binary", "libs/sqf/src/parser/mod.rs: run"]}
{"id": "C62", "title": "A config is either reported or written", "statement": "For every config tree the parser can produce, under every lint settings the project check accepts, converting a config ends in exactly one of two ways: errors are reported and nothing is written, or no lint found anything and the raP file of that very tree is written. It never panics and the writer never meets something it cannot write: an unreadable value, an array in a property without [], or a property without semicolon is always reported first. (The severity configured for a config lint does not matter: a lint set to 'warning' still stops the config, for which there is a witness.)", "quantifier": "all config trees (and all texts the parser accepts), all accepted lint settings, all prefixes", "why_tests_cant": "The writer has unreachable!/assert branches for exactly the things the lints must have stopped; that the lints stop them at every depth, for every tree and under all settings, needs an induction over trees.", "anchors": ["libs/config/src/lib.rs:parse", "bin/src/modules/rapifier.rs:rapify", "libs/config/src/analyze/mod.rs", "libs/config/src/analyze/lints/*", "libs/config/src/rapify/*"]}
{"id": "C63", "title": "Duplicate properties and classes are reported exactly", "statement": "In a config whose names have no dots (parsed ones have none), for every place (chain of class names, case-insensitive) at which two or more properties or classes are defined, not all of them classes, one duplicate-property error is reported that lists all the names in file order, and there are no other such errors. Two or more classes of one name (case-insensitive, declarations included) in one body are reported with all their names, and no others.", "quantifier": "all config trees, all accepted lint settings", "why_tests_cant": "Both directions (no miss, no false alarm) over trees of any depth and with any interleaving of names.", "anchors": ["libs/config/src/analyze/lints/c02_duplicate_property.rs", "libs/config/src/analyze/lints/c03_duplicate_classes.rs"]}
{"id": "C64", "title": "Missing parents and wrongly spelled parents are reported exactly", "statement": "A class with a parent is reported as having a missing parent exactly if no class header anywhere before it in the file has that name (ignoring case) and the parent is not its own name. If the lint is on, a class is reported for the spelling of its parent exactly if, as seen from the file or from within some enclosing class, the class that defines the parent (the last with a body, else the first declaration) spells it otherwise. (So a parent declared only inside an unrelated class, and a class that inherits from its own name, are not reported: witnesses.)", "quantifier": "all config trees, all accepted lint settings", "why_tests_cant": "Both directions over trees of any depth and all orders of declarations.", "anchors": ["libs/config/src/analyze/lints/c04_external_missing.rs", "libs/config/src/analyze/lints/c05_external_parent_case.rs"]}
{"id": "C65", "title": "Value, array, semicolon, brace and magazine problems are reported exactly", "statement": "At every depth: an invalid value (also inside arrays) is reported iff there is one; an array in a property without [], a non-array in one with [], a property without semicolon and a class without braces are reported by name iff they are there; if its lint is on, a magazine is reported as missing iff it is named in an array of a class of CfgMagazineWells, starts (ignoring case) with the prefix of the project, if any, and no class of CfgMagazines has exactly that name. (The last comparison minds the case, although class names do not: witness.)", "quantifier": "all config trees, all accepted lint settings, all prefixes", "why_tests_cant": "Both directions over trees of any depth.", "anchors": ["libs/config/src/analyze/lints/c01_invalid_value.rs", "libs/config/src/analyze/lints/c06_unexpected_array.rs", "libs/config/src/analyze/lints/c07_expected_array.rs", "libs/config/src/analyze/lints/c08_missing_semicolon.rs", "libs/config/src/analyze/lints/c09_magwell_missing_magazine.rs", "libs/config/src/analyze/lints/c10_class_missing_braces.rs"]}
{"id": "C66", "title": "The required game version is read and combined correctly", "statement": "A requiredVersion written X.YY (X < 131072, one or two digits after the point) and read as the nearest f32 is taken as version X.YY, for every X and YY (beyond that bound, or with a third digit, it need not be: witnesses). A config requires the highest version that any class of a top-level CfgPatches asks for by its last fractional requiredVersion, 0.0.0 if none does; whole numbers and strings do not count (proved for all of them). An addon with exactly one config.cpp that converts gets that version, in whatever order its files are converted; with two it depends on the order (witness). The warning about an unreleased version is given exactly if some addon's version is above the stable one, and names exactly the addons with the highest, for components below 256 (above, it can be missed: witness).", "quantifier": "all X < 131072 and YY < 100; all config trees; all orders of conversion; all lists of addons", "why_tests_cant": "Rounding of f32 for all versions; all trees and schedules.", "anchors": ["libs/config/src/model/config.rs:get_patches", "libs/config/src/lib.rs:ConfigReport::required_version", "libs/common/src/version.rs:From<f32>", "bin/src/modules/rapifier.rs:rapify", "bin/src/modules/sqf.rs:post_build", "libs/workspace/src/addons.rs:BuildData"]}
{"id": "C67", "title": "A script is reported as needing a newer game only for a command it uses; with commands and blocks alone none is missed", "statement": "When the check of required versions reports a command, the script uses that command at the place shown, the command came with the version shown, and the addon requires an earlier one. In statements made of known commands and of blocks of them only, a command newer than the addon's version is never missed: there is one report, of a command at least as new. A command whose right argument is a literal, a variable or an array is not looked at, whatever its version.", "quantifier": "all scripts, databases of command versions, addon versions, nestings of commands and blocks", "why_tests_cant": "Tests use a handful of scripts; how far versions are carried through nested commands and blocks is a claim about all expression trees.", "anchors": ["libs/sqf/src/lib.rs: Statements::required_version", "libs/sqf/src/analyze/lints/s01_command_required_version.rs: Runner"]}
{"id": "C68", "title": "The SQF analysis runs each lint on every block, statement, expression and command of a script, and on nothing else", "statement": "A lint's runner yields a finding for a script exactly if it yields it for the script itself or a block anywhere in it, for a statement of one of those, for an expression anywhere in it, or for the command of such an expression. The trees that texts read as hold none of the one kind of expression that the analysis does not enter.", "quantifier": "all scripts (trees of any depth), runners, texts and command databases", "why_tests_cant": "A lint that is skipped below some construct only shows on scripts that nest that construct; the claim is over all trees.", "anchors": ["libs/sqf/src/analyze/mod.rs: Analyze", "libs/sqf/src/lib.rs: Expression::walk_expressions, Statement::walk_expressions", "libs/sqf/src/parser/mod.rs: run"]}
{"id": "C69", "title": "Event handlers are reported exactly if their event is unknown, is for another command or is too new", "statement": "In a project whose lint settings are accepted, an event named by a command for events is reported as unknown exactly if the wiki has no such event, as being for another command exactly if the wiki has it in none of the places the command is for, and as too new exactly if its first entry for such a place came after the version the addon requires; commands about user actions and, for the first two, commands in the list to ignore are left alone. Each is reported once plus once for every block around it. Switching the lint on unknown events off is accepted but changes nothing, and listing an event to ignore does not make it ignored.", "quantifier": "all scripts, wikis, accepted lint settings, addon versions, depths of nesting", "why_tests_cant": "Exactness in both directions and the number of reports at any depth cannot be sampled.", "anchors": ["libs/sqf/src/analyze/lints/s02_event_handlers.rs: EventHandlerRunner, check_unknown, check_version, get_namespaces, get_id", "libs/workspace/src/lint/mod.rs: LintManager::run", "libs/sqf/src/analyze/mod.rs: lint_check, analyze"]}
{"id": "C70", "title": "Format strings are checked exactly against the arguments they are given", "statement": "A `format` or `formatText` with an array of arguments is reported with an unescaped `%` exactly if its string has a `%` followed by neither a digit nor another `%`, with undefined tokens exactly if its greatest placeholder exceeds the number of arguments, with unused arguments exactly if it is below it, and with skipped tokens exactly if it equals it but there are fewer placeholders than that; every other string is accepted. If no placeholder occurs twice, accepted means that every argument is used exactly once. A repeated placeholder can hide a skipped one (`%1 %1 %3` with three arguments), and an index of 2^64 or more counts as 0.", "quantifier": "all format strings (of any length), numbers of arguments, scripts and places in them", "why_tests_cant": "The classification is an equivalence over all strings; tests sample a few of them.", "anchors": ["libs/sqf/src/analyze/lints/s08_format_args.rs: Runner, get_format_problem"]}
{"id": "C71", "title": "Conditions reported as impossible are never true, and those reported as overlapping are redundant, if comparisons are written variable first", "statement": "The check of `if` conditions ends without a panic for every condition. If every comparison has its variable on the left and finite numbers, then a pair reported as impossible is never true together, whatever the variables hold, so its alternative of the condition is never true; and in a pair reported as overlapping one side follows from the other. Two bounds of a variable in contrary directions that exclude each other, and two in the same direction, are reported. With the number on the left all of this fails: `0 < _x && _x < 10` is reported as overlapping and `3 < _x && _x > 5` as impossible. `_x < 3 && _x > 3` is missed.", "quantifier": "all conditions (trees of any depth of and, or and comparisons), all values of variables", "why_tests_cant": "Whether a report is right depends on all values of the variables and all shapes of conditions.", "anchors": ["libs/sqf/src/analyze/lints/s21_invalid_comparisons.rs: Runner, flatten_comparisons, extract_comparisons, check"]}
{"id": "C72", "title": "Assignments to reserved variables are reported unless they were saved", "statement": "An assignment to one of the game's reserved variables is reported if no statement before it saved that variable and none saved anything in the variable it is assigned from; only assignments to reserved variables are. A variable that is saved, changed in the next statement, and whose saved value is never assigned to anything is reported as never restored; whatever is reported so was saved and then changed where the report says; assigning the holder before restoring is reported. A save, change and restore among unrelated statements is not reported. `params` reports exactly its first reserved name. But assigning the saved value to any other variable counts as restoring, a variable saved again before it is restored is reported although it is restored, and names written in another case are missed.", "quantifier": "all scripts and blocks (lists of statements of any length), all variables and values", "why_tests_cant": "The lint carries state over the statements; the claims are over all histories of statements.", "anchors": ["libs/sqf/src/analyze/lints/s23_reassign_reserved_variable.rs: StatementsRunner, ExpressionRunner"]}
{"id": "C73", "title": "Repeated global marker updates are reported exactly, per stretch without an assignment to the marker's variable", "statement": "A group of marker updates is reported for a block exactly if it is, for some name and some longest stretch of statements without an assignment to the variable of that name, all the global marker commands on that name among the statements of that stretch, in order, and they are two or more. A variable and a string of its name count as the same marker, and commands written in another case are missed.", "quantifier": "all scripts and blocks (lists of statements of any length), all names and commands", "why_tests_cant": "The pending updates are state carried over statements; exactness is over all histories.", "anchors": ["libs/sqf/src/analyze/lints/s24_marker_spam.rs: Runner, is_marker_global, marker_name"]}
{"id": "C74", "title": "A macro used wrongly or a block left open fails the file", "statement": "Text that is reached and that uses a function-like macro without calling it, calls it with the wrong number of arguments, uses a macro that has no value, or uses `__EXEC` or another refused name, fails preprocessing with the diagnostic for it (PE10, PE9, PE11, PE25, PE26), whether the use stands in the text, in an argument, or in the body of another macro at any depth; so does `#if __has_include` when no pragma allows it (PE23). A file that ends inside a conditional block, taken or not, before or after its `#else`, however deep, fails with PE18. Known exceptions: a macro without value, or a function-like macro that is not called, as the last token of another macro's body panics; a block left open by an included file is not an error but goes on in the including file; a call whose closing parenthesis is missing takes the rest of the file as its argument.", "quantifier": "for all files, macro tables, nesting of calls and arguments, included files and conditional blocks around the misuse", "why_tests_cant": "The place of the misuse ranges over unbounded nesting of macro bodies, arguments, blocks and includes; tests cover each diagnostic once at the top level.", "anchors": ["libs/preprocessor/src/processor/mod.rs: Processor::run, walk", "libs/preprocessor/src/processor/defines.rs: define_use, call_read_args", "libs/preprocessor/src/processor/directives.rs: directive_if", "libs/preprocessor/src/ifstate.rs"]}
{"id": "C75", "title": "A lint's suggested replacement is a script that does what the reported expression does", "statement": "When one of the SQF lints on typeName of a constant, if/else on constants, find, select of 0 and 1, in-vehicle checks and comparison with a Boolean suggests a replacement for an expression of a parsed script, the suggested text itself parses, as exactly one expression, and that expression evaluates to the same value with the same effects as the reported one, under every interpretation in which the commands involved do what they are documented to do and the operand has the type the command documents (Boolean condition, string haystack, object). Of select on two numbers a replacement is suggested exactly when one of them is 0 and the other 1, up to 2^-23, and the condition is a Boolean or a string, a comparison, or a command all of whose documented results are Booleans or strings. The exact boundary: a condition made of a binary operator is not put into parentheses before parseNumber; the strings \"1\" and \"0\" are taken for numbers; a variable of the branch not taken is evaluated; text of a location is not a TEXT; a number within 2^-23 of 0 or 1 is taken for it; a double quote in the needle of find breaks the suggestion; null values of typeName are only recognised in all-lower-case spelling. Each of these is shown by a witness.", "quantifier": "all scripts, all expressions in them, all six lints, all wiki and project command sets that have the suggested commands, all number formats that print and read back, all interpretations of the commands, states and call depths", "why_tests_cant": "The suggestion is assembled as text, from operands of any shape, and is meant to be pasted into the script: whether it parses to the intended tree and keeps the meaning depends on the shape of every operand and on what every command does in every state.", "anchors": ["libs/sqf/src/analyze/lints/s03_static_typename.rs", "libs/sqf/src/analyze/lints/s05_if_assign.rs", "libs/sqf/src/analyze/lints/s06_find_in_str.rs", "libs/sqf/src/analyze/lints/s07_select_parse_number.rs", "libs/sqf/src/analyze/lints/s18_in_vehicle_check.rs", "libs/sqf/src/analyze/lints/s20_bool_static_comparison.rs", "libs/sqf/src/analyze/mod.rs: extract_constant", "libs/sqf/src/lib.rs: Expression::source"]}
{"id": "C76", "title": "The lints on command names, all-caps variables and needless words report exactly the documented places, and following them keeps the meaning", "statement": "Over a whole script, at any depth: a command is reported for its case exactly where it is used under a name that differs from the wiki's; as broken or banned exactly where the wiki has it in the group of broken commands, or the project's settings list it (in any case); `!` as needless exactly in if (!c) then a else b; a variable as all caps exactly where it is not local, has no small letter, is not SLX_XEH_COMPILE_NEW and fits no pattern of the ignore list (exact, or a beginning followed by *); `_this` as needless exactly in `_this call f`. Each only while the project's settings leave the lint on, with the severity the settings give, and not for names on the lint's ignore list. Exchanging the branches without the `!`, and calling without `_this`, evaluates to the same under every interpretation of the commands as documented. The boundary: `and`, `or` and `not` are reported under no name but `&&`, `||` and `!`, so that banning the words has no effect and the case of operators that are words is never reported; and the replacement suggested for a command in the wrong case is a string literal, not the command.", "quantifier": "all scripts, all settings that the project check accepts, all wikis, all option values, all interpretations of commands and states", "why_tests_cant": "Whether a lint misses or adds a place depends on every nesting of the script and every combination of settings and lists; tests show one report on one snippet.", "anchors": ["libs/sqf/src/analyze/lints/s04_command_case.rs", "libs/sqf/src/analyze/lints/s09_banned_command.rs", "libs/sqf/src/analyze/lints/s11_if_not_else.rs", "libs/sqf/src/analyze/lints/s17_var_all_caps.rs", "libs/sqf/src/analyze/lints/s22_this_call.rs", "libs/sqf/src/lib.rs: Expression::command_name", "libs/workspace/src/lint/mod.rs: LintManager::run"]}
{"id": "C77", "title": "A launch profile has exactly what it and the profiles it extends say, or is refused", "statement": "When a project's launch profiles are loaded, they are accepted exactly if every profile's chain of `extends` reaches a profile that extends nothing. Then every profile is there, and it has the workshop mods, DLC, presets, optionals and parameters of all profiles in its chain, each once and in order, and for each single setting (mission, executable, binarize, file patching, instances, rapify) the value of the nearest profile in its chain that has one; the order in which the map of profiles is iterated makes no difference to this. A profile is reported to extend itself only if its chain comes back to it, and to extend a missing one only if its chain leads to a name that is not there. A profile whose chain runs into a circle that it is not itself on is the exception to being reported: its resolution never ends, so whether the circle is reported or the program hangs depends on the iteration order. Of the profiles named on the command line the first unknown one is reported; otherwise their lists are put one after the other and the last value of each setting wins; with no names the profile `default` is used, or no options if there is none.", "quantifier": "every set of profiles (any names, any extends graph, any options), every iteration order, every list of names", "why_tests_cant": "the chain of profiles has no bound and its graph may be any function; tests use one or two profiles", "anchors": ["libs/common/src/config/project/hemtt/mod.rs: TryFrom<HemttSectionFile>, load of launch profiles", "libs/common/src/config/project/hemtt/launch.rs: LaunchOptionsFile, overlay, dedup", "bin/src/commands/launch/mod.rs: read_config"]}
{"id": "C78", "title": "The game is launched with exactly the mods, DLC and options of the profile", "statement": "On Windows `hemtt launch` starts the game exactly if Arma 3 and its workshop folder are found, every preset named has its page, the build is in place, every mod folder exists and a mission, if one is set, is found at one of its two places and is not an absolute path. It starts as many instances as asked for (command line, else profile, else one), each with the same arguments: `-mod` for every DLC of the profile or linked in its presets, once and in order; `-mod` for the project's build folder and for every workshop mod of the profile or linked in its presets, once and in order, except the number under which meta.cpp says the project itself is published; the four fixed options, the profile's parameters, the arguments after `--`, the mission file, and `-filePatching` unless switched off. The program is the profile's executable in the game's folder, with the extension .exe. Whatever is reported is so. A DLC is understood by exactly its listed names in any case, with or without the words `Creator DLC: `. It is not so in these cases, each shown: zero instances panic; the command line's executable is ignored; a preset with a dot in its name is looked for under the name up to the dot; on Linux nothing is started unless the build folder's path exists below the workshop folder, and a single instance never has file patching.", "quantifier": "every profile, command line, preset page, meta.cpp and state of the file system", "why_tests_cant": "the arguments depend on arbitrary pages searched by regular expressions and on the file system; a test launches the game or nothing", "anchors": ["bin/src/commands/launch/launcher.rs: Launcher::new, add_self_mod, add_preset, launch", "bin/src/commands/launch/platforms.rs: windows, linux", "bin/src/commands/launch/preset.rs: read", "bin/src/commands/launch/mod.rs: execute", "libs/common/src/arma/dlc.rs: DLC", "libs/common/src/config/project/hemtt/launch.rs: executable"]}
{"id": "C79", "title": "A path names the file the documented search order says, and files are found below addon prefixes", "statement": "Asking the workspace for a path gives: for a path without a leading slash, the file reached from the folder of the asking file, and nothing else; for one with a leading slash, the P drive's file if the path is below /a3 and the P drive has it, else the workspace file of exactly that path (with no complaint about case), else the file below the folder of the addon whose prefix (up to case) the path begins with, else a file that differs in case only, in the project folder first and then in include, with its true spelling reported. Whatever is found exists. The prefixes are exactly those of the prefix files below include, optionals and addons; a workspace with an invalid or repeated prefix is refused. The order prefixes are stored in has no effect if none lies below another. The path the game would use for a file leads back to that file. Without an unpacked P drive, game files are taken from the last archive of that name. Exceptions, shown to exist: nested prefixes are resolved in hash order; a path relative to a file is never found in another case; of two folders that differ in case only one is searched; a doubled slash after a prefix leads to the project root; names behind '..' are not searched up to case; a trailing slash makes the on-demand P drive panic, archive names are compared with case, and the game is unusable as a P drive if one of fourteen DLC folders is missing.", "quantifier": "every workspace (files, prefixes, disk contents, P drive), every asking file and every ASCII path text; every walk of prefix files; every game installation", "why_tests_cant": "Tests fix one project layout; the search order, case folding and prefix matching must be right for every combination of layout and path, including hash orders that vary between runs.", "anchors": ["libs/workspace/src/path.rs: WorkspacePath::locate, as_virtual_str, with_extension, exists_case_insensitive", "libs/workspace/src/lib.rs: Workspace::discover", "libs/workspace/src/pdrive.rs: PDrive::path_to, PDriveOnDemand", "libs/common/src/strip.rs: strip_prefix_insensitive"]}
{"id": "C80", "title": "Binarize is run for exactly the files that want it, and missing textures and materials are reported exactly", "statement": "If the check of a build succeeds, binarize is later run once for each model, animation and terrain (extension rtm, p3d or wrp, in lower case) of each addon whose binarization is on, that no exclude pattern of the addon matches and that is not binarized already (ODOL, BMTR, OPRW), in the order of the walk; not without the tools and not for `hemtt check`. Each run reads the file's folder below the addon's prefix and writes below hemtt_binarize_output the same path as the file has in the project, so that no two files share a result; the files reported as failed are exactly those without a result. A texture of an unbinarized model is reported as missing exactly if it is named, is not procedural, and neither it nor the file it can be converted from (.paa and .tga, .png to .paa) is found; a material exactly if it is not found; as warnings exactly if the project ignores the P drive; a required P drive that is absent is reported. The cache that the models share does not change this, whatever the order of the files. The check gives up only over a file of less than four bytes, an unreadable model, an invalid pattern or a path that cannot be looked up. Exceptions, each shown: an extension in upper case is overlooked, a file of less than four bytes panics, a texture path ending in a backslash fails the build, a path used both as texture and material confuses the cache, and a texture in a folder whose name contains the extension is reported though it can be converted.", "quantifier": "all projects, exclude patterns, models, workspaces (as an arbitrary lookup), orders of the hash sets and P drive settings", "why_tests_cant": "selection and reports are over arbitrary trees and models with a cache shared across all of them and hash sets in any order; tests use a few fixed models", "anchors": ["bin/src/modules/binarize/mod.rs: check, pre_build, check_signature", "libs/p3d/src/functions/missing.rs: P3D::missing, SearchCache"]}
{"id": "C81", "title": "Converting configs and scripts in parallel gives the same files and reports under every schedule", "statement": "During a build the configs (.cpp, .rvmat, .ext of addons for which rapify is on, not excluded) and the scripts (.sqf except .inc.sqf) are converted on several threads at once. As long as no conversion reads the output of another one and an addon has at most one config.cpp, every interleaving of their reads and writes ends, and leaves exactly the files, the recorded required versions and the reports, in the order of the files, that converting them one after the other gives. If some conversion fails the build reports the error of one of the failing files and every other file is either converted completely or left untouched. Exactly the documented files are converted, to the documented places. Outside these bounds the claim is false: a config that includes an .rvmat or .ext that is itself converted, or two config.cpp in one addon, make the result depend on the schedule; which of several errors is reported depends on it; and an exclude pattern written relative to the addon, as documented, excludes nothing.", "quantifier": "all addon trees, all conversion programs (whatever they read and compute), all initial file systems and all interleavings of their actions, of any length", "why_tests_cant": "a test runs one schedule on one project; races show only under particular interleavings", "anchors": ["bin/src/modules/rapifier.rs: pre_build, rapify, can_rapify", "bin/src/modules/sqf.rs: pre_build", "libs/workspace/src/addons.rs: set_required_version", "libs/common/src/config/addon/rapify.rs"]}
{"id": "C82", "title": "A config file is either reported for exactly what is wrong with it or becomes exactly what its text says", "statement": "Take a config file and what the preprocessor makes of it. If that text says a tree of classes, values and arrays (as the config grammar has it), contains no NUL, and the lint settings are ones the project check accepts, then building the file ends in one of two ways. Either it is reported, and the reported errors are exactly: two things of one name at one place not all classes, two classes of one name between the same braces, a class whose parent is not declared before it, and (if these lints are on) a parent spelled otherwise than where it is defined and a magazine of the project that a magazine well names and CfgMagazines lacks. Or nothing of that kind is in the tree and the file is written (unless it asks to be left alone), and, below 4 GiB, the written raP file decodes to that tree and to no other. For a file without directives, without double underscores and without a backslash ending a line this holds of the text itself with its comments taken out: layout and comments make no difference to the outcome, and files that come out the same say the same. A file is written only if all of its preprocessed text was parsed without repair and nothing was reported.", "quantifier": "all projects, files and texts, macros and includes, lint settings, prefixes, trees of any size and depth", "why_tests_cant": "The result composes preprocessor, parser, lints and writer; a test fixes one text for all four, while the claim is about every text that says a given tree and every tree.", "anchors": ["bin/src/modules/rapifier.rs: rapify", "libs/preprocessor/src/processor/mod.rs: Processor::run", "libs/workspace/src/reporting/processed.rs: Processed::new", "libs/config/src/lib.rs: parse", "libs/config/src/parse/mod.rs: config", "libs/config/src/rapify/config.rs: Rapify::rapify"]}
{"id": "C83", "title": "A script that parses always compiles, unless it is too large", "statement": "Every script whose preprocessed text, put together from at most 256 files, the parser reads, and in which no array literal has more than 65535 elements, is turned by the compiler, before or after optimisation, into a compiled script, or the compiler reports that a list is too long; it never panics and never reports an invalid name, and every string, number and name of the script is one the file format can hold. The boundary is sharp: an array literal of 65536 or more constants makes the compiler panic, and a script of 17 blocks nested in arrays, whose innermost block uses an array literal the optimiser shares, is never compiled although it is short, because each block is compiled twice and the shared array is one more constant every time.", "quantifier": "all token outputs of the preprocessor, all texts, all command databases, all float operations with 32-bit results; all nesting depths from 17 on for the second boundary", "why_tests_cant": "Panics of the compiler depend on spans, names and lengths of every node of the syntax tree; that the parser only makes trees for which none of the expects fails is a property of all texts.", "anchors": ["libs/sqf/src/compiler/mod.rs: Statements::compile, location_to_source, Statement::compile_instructions, Expression::compile_instructions, Expression::compile_constant, push_constant, try_normalize_name", "libs/sqf/src/parser/mod.rs: run", "libs/sqf/src/compiler/optimizer/mod.rs: Statements::optimize"]}
{"id": "C84", "title": "From the text of a script to its .sqfc file", "statement": "When the preprocessed text of a script (up to 2 GiB, from at most 256 files) is read by the parser as a tree without array literals of more than 65535 elements and without `{..} else {..}` as an array element, then either the analysis reports an error and nothing is compiled, or the .sqfc file written, read back and with its tables looked up, is code whose source is exactly the preprocessed text and whose operations are, in postfix order and each at its place, those of a script that does the same as the tree in every engine that follows the documented laws; or a part is too large for the format, which is reported. For a file without directives the text is the file without its comments and the only file named is that file. A file is only written for a text that was read to its end and against which the analysis reports no error. A text that is not a script is reported, except when it has a line that starts with `force `: such a text is left out without a report, even when it is a script with a mistake in it.", "quantifier": "all files, includes, macros, command databases, analyses, float operations and engines that meet the documented laws", "why_tests_cant": "The result is the composition of preprocessor, source map, lexer, parser, optimiser, compiler and serialiser on any text; tests fix one text.", "anchors": ["bin/src/modules/sqf.rs: SQFCompiler::pre_build", "libs/sqf/src/parser/mod.rs: run", "libs/sqf/src/compiler/mod.rs: Statements::compile_to_writer", "libs/sqf/src/compiler/serializer/mod.rs: Compiled::serialize"]}
{"id": "C85", "title": "The version of a project comes from one place and stays the same during a run", "statement": "A version section is accepted exactly if major, minor and patch are all given without a path, or none of them is given. The version asked for first has the numbers given in the project file, or else those the version file (the given path, or addons/main/script_version.hpp) defines, and as hash the first n characters of the commit at HEAD (n from git_hash, eight by default, none if 0); in every other case an error is given. Once a version was told, every later question of the run gets the same version, whatever becomes of the files and the settings, until a hook has run; no other answer is ever given. Its text reads back as the version. A git_hash longer than the commit's name crashes, and a build number given alone is accepted and not used.", "quantifier": "every version section, every content of the version file and commit at every question, every sequence of questions and hooks", "why_tests_cant": "the version goes into properties, signatures and archive names at different times of a build; tests ask once", "anchors": ["libs/common/src/config/project/version.rs: VersionConfig::get, invalidate, internal_get, TryFrom<VersionSectionFile>"]}
{"id": "C86", "title": "What hemtt dev and hemtt build choose and leave in their folder", "statement": "hemtt dev takes an addon exactly if it is named by --just (up to case, if --just is used at all) and is either an optional of a launch configuration, or is wanted (not an optional, or named by --optional, or --all-optionals) and lies in no excluded folder, a folder covering the folders below it; it refuses to build exactly if an optional was asked for that is not among those taken. After a run without errors of dev (or of build), from any previous contents of the folder, the folder holds at each path exactly: the file that the include patterns (or the five usual ones) choose, else the PBO of a taken addon, else, with --just, what was there before, else, for dev, the link to the addon's folder; nothing older survives without --just, the releases are untouched, and the project's files change only as the modules change them - provided no chosen file lies below a link, and neither prefix nor names have a dot. An include pattern that meets a file below an addon makes dev empty that source file, and --just of one addon with --optional of another fails.", "quantifier": "all arguments, projects, addons, patterns, module behaviours and previous contents of the folder", "why_tests_cant": "The result depends on the previous contents of the folder and on the interplay of four modules; tests start from a clean folder.", "anchors": ["bin/src/commands/dev.rs: context", "bin/src/commands/build.rs: execute", "bin/src/context.rs: Context::new, filter", "bin/src/modules/files.rs: post_build", "bin/src/modules/file_patching.rs: pre_build", "bin/src/modules/pbo.rs: build, target_pbo", "libs/common/src/config/project/files.rs: FilesConfig"]}
{"id": "C87", "title": "A release archive holds exactly what was built, copied and signed, whatever was there before", "statement": "From any previous output folder and any previous releases: if hemtt release ends without errors and archives, then <prefix>-latest.zip and <prefix>-<version>.zip both hold the same archive, the other releases are untouched, and the archive holds under @<folder> exactly the PBO of each addon, the chosen files, the public key, the own key of each optional mod folder and one signature per PBO, of that PBO by the key beside it, each once, with exactly the directories on their way. However the run ends, the releases are either untouched or hold such a complete archive (under the first name only, if the version could not be found). The answer, the folder and what is written to the releases depend only on the project. Provided that no copied file takes a made file's place and neither prefix nor names have a dot: a dotted prefix loses text in the name of the latest archive, and a copied file at a PBO's place is released and signed instead of it.", "quantifier": "all projects, addons, patterns, module behaviours, keys, flags, previous folders and previous releases, and all ways a run can end", "why_tests_cant": "A release is the composition of all modules; tests look at single modules and at clean folders.", "anchors": ["bin/src/commands/release.rs: execute", "bin/src/modules/archive.rs: release", "bin/src/modules/sign.rs: pre_release", "bin/src/modules/pbo.rs: build", "bin/src/modules/files.rs: post_build", "bin/src/executor.rs: run"]}
{"id": "C88", "title": "Unpacking an archive gives exactly its files and stays in its folder", "statement": "`hemtt utils pbo unpack` never touches a folder that exists. When no name in the archive starts with a separator or has a `..` piece, nothing outside the output folder changes but that the folders leading to it are made, and nothing that was on the disk is changed or lost, however the command ends. When the names are moreover ordinary paths with backslashes, distinct ignoring case, not on the way to each other and not the two names below, the command succeeds and the folder holds exactly the archive's files, each with its own bytes, plus `$PBOPREFIX$` with the prefix and `properties.txt` with the other properties in order; so unpacking what HEMTT packed gives back exactly the files and properties that were added. `hemtt utils pbo extract` writes the body of the first file so named ignoring case and kind of separator, changes nothing else, and never changes a file that exists. Outside these limits: a name with `..` or a leading separator overwrites files outside the folder, names differing only in case all get the first one's bytes, a name with `/` makes the command panic, and a packed `$PBOPREFIX$` replaces the prefix written.", "quantifier": "all byte strings given as archive, all output folders, all disks, all histories of packing calls", "why_tests_cant": "The claim ranges over every archive, also foreign and malformed ones, and over every disk the command is run on; tests unpack a few archives into an empty folder.", "anchors": ["bin/src/utils/pbo/unpack.rs: execute", "bin/src/utils/pbo/extract.rs: execute", "libs/pbo/src/read.rs: ReadablePbo::from, file, properties, files"]}
{"id": "C89", "title": "Rewriting and sorting a stringtable keeps its comments where they belong", "statement": "A stringtable file whose keys and packages are in order and whose comments are indented like the lines below them is written back byte for byte; sorting any other moves every comment, exactly once, with the line right below it and inside the same key, and only changes the comment's indentation; each key that has translations then has, between its first line and its last, one line for each of them and no other, under the name of its language; a second run then changes nothing and the lint on unsorted stringtables is silent. This holds for comments (one or several lines, one or several below each other) that fill whole lines and stand above a line of XML without ampersands, in a key whose first line has none, which differs from every other line of the same key (or of outside the keys), where no value has a line break and no key is empty. Outside that boundary it fails: a comment above a blank line is copied above every line outside the keys, one above a line with an ampersand or below the last line is dropped, one at the end of a package is copied to the end of every package, one with a key behind it on the line makes the key appear twice, one behind a key without translations can get lost in sorting. The lint names exactly the files the command would change by more than outer blanks; the command rewrites the files up to the first that is not valid and leaves the others untouched.", "quantifier": "all projects (any nesting of packages and containers, any names and translations on one line), all arrangements of comments over the lines of the file, all readers of the XML, with and without only-lang, any list of files", "why_tests_cant": "the comments are carried by matching text of lines, so any two similar lines anywhere in a file can interact; the snapshot tests have one file with comments", "anchors": ["libs/stringtable/src/lib.rs Project::from_reader, Project::to_writer, Project::sort", "libs/stringtable/src/package.rs Package", "libs/stringtable/src/key.rs Key", "libs/stringtable/src/analyze/lints/01_sorted.rs Runner::run", "bin/src/commands/localization/sort.rs sort"]}
{"id": "C90", "title": "The hooks of a phase run in order, all of them, and a failing one fails the phase", "statement": "In each of the four phases (pre_build, post_build, pre_release, post_release) the files in .hemtt/hooks/<phase> are run as scripts in alphabetical (byte) order of their names, each once; folders there are skipped. A hook that raises an error or calls fatal does not keep the later hooks of its phase from running, but the phase's report then holds exactly one error for each such hook, in order, and none for any other. Only a hook that is not text, or a version that cannot be told when a hook starts (this panics), ends the phase early. Every hook but the first of a phase is told the project's version as it is when that hook starts (the first too if none is kept), and no version is kept once a hook has run. Hooks of post_release, scripts run by hemtt script and scripts called by HEMTT.script never reach the files in memory. hemtt script fails exactly if the script is not there, raises or calls fatal. At the start every entry of the four folders is parsed, and exactly those that do not parse are reported. Boundary, each with a witness: the failure of a script called by HEMTT.script (missing, raised, fatal) is dropped, and such a script is told the version kept at the start of the calling hook; a folder among the hooks ends the run at the start although the phase would skip it, and any file there, a README say, must be a script; the name given to hemtt script loses what follows its last dot.", "quantifier": "every project's files on disk and in memory, every listing of a hook folder, every behaviour of the scripts (any effects on files, any branching on what they see, calls of other scripts to any depth), every version setting and kept version", "why_tests_cant": "The tests run one or two fixed hooks; the claim is about any number of hooks doing anything to the files, including to the version file and to each other, with failures at any position.", "anchors": ["bin/src/modules/hook/mod.rs: run_folder, run_file, run, init, scope", "bin/src/modules/hook/libraries/hemtt.rs: script", "bin/src/modules/hook/libraries/project.rs: RhaiProject::new", "bin/src/commands/script.rs: execute", "libs/workspace/src/path.rs: with_extension", "libs/common/src/config/project/version.rs: invalidate"]}
{"id": "C91", "title": "The game version an addon asks for is known after its configs are converted, so the check of its scripts never uses it", "statement": "In every run of `hemtt check`, `dev`, `launch`, `build` and `release`, with any flags and settings, the scripts are checked and compiled before any config is converted. So nothing is known then of the version that the configs ask for, and no command and no event handler is ever reported as too new for its addon in such a run, whatever the configs ask for. What the conversion of the configs found is known, unchanged, when it is said which addons need a game that is not out yet; a run that does not convert configs knows of no version there, and a check does not come so far.", "quantifier": "all commands with all flags and settings, all worlds, all behaviours of the modules (only the conversion of configs notes versions), all scripts, command databases and lint settings", "why_tests_cant": "The unit tests of the two lints give the addon a version by hand; that no order of modules in any command gives it one in time is a statement about all runs.", "anchors": ["bin/src/commands/mod.rs: global_modules", "bin/src/commands/{check,dev,build,release}.rs: execute, context, executor", "bin/src/executor.rs: Executor::run, run_modules", "bin/src/modules/sqf.rs: SQFCompiler::pre_build, post_build", "bin/src/modules/rapifier.rs: Rapifier::pre_build, rapify", "libs/workspace/src/addons.rs: BuildData", "libs/sqf/src/analyze/lints/s01_command_required_version.rs", "libs/sqf/src/analyze/lints/s02_event_handlers.rs: check_version"]}
{"id": "C92", "title": "The archive of an addon has what its files were converted to, whatever the schedule", "statement": "A build that packs addons first compiles their scripts, at once and in any order, then converts their configs, at once and in any order, then packs each addon's folder. Suppose no addon is in the folder of another, every conversion succeeds, no conversion reads a file another one makes, and at most one config.cpp is converted in an addon. Then, however the conversions are scheduled, each archive can be read, and it has exactly these files: those of the addon after the conversions (what a config or a script is converted to from the files as they were before the build, and every other file with the content it had) without addon.toml, prefix files, what the exclude patterns match, and any config.cpp that has a config.bin beside it. So a converted config.cpp is replaced in the archive by its config.bin, scripts are there as text and compiled, and the config.bin of a config.cpp without directives and with nothing wrong is the raP file of the classes and values its text says and of nothing else. Each file is found under its path in the addon if no other has the same name in another case.", "quantifier": "all sets of addons and files, all conversions that read and write as the modules do, all schedules of their reads and writes, all walk orders, all exclude patterns and settings, all config texts without directives (for the last part)", "why_tests_cant": "The tests run the parts (rapify one file, write one archive) on a few files; that the parts compose under every schedule of the parallel conversions, and nothing is lost, doubled or taken from the wrong file, is a statement about all runs.", "anchors": ["bin/src/modules/sqf.rs: SQFCompiler::pre_build", "bin/src/modules/rapifier.rs: Rapifier::pre_build, rapify, out_path", "bin/src/modules/pbo.rs: build, internal_build", "bin/src/executor.rs: Executor::run", "libs/pbo/src/write.rs: WritablePbo", "libs/pbo/src/read.rs: ReadablePbo"]}
{"id": "C93", "title": "Settings are what the files say", "statement": "Reading project.toml together with launch.toml and lints.toml gives for every setting the value that stands under its documented key, and the documented default if the key is missing; launch profiles come from launch.toml if it is there and otherwise from project.toml, lints likewise from lints.toml. A project is accepted exactly if every documented key has a value of its kind, name and prefix are there, the prefix is not empty, the version numbers are all given without a path or not given at all, profiles or lints do not stand in both places, and every profile leads to one that extends nothing; no other key of project.toml has an effect. The settings of an addon are what its addon.toml says, with the old names of two keys, an addon.toml that cannot be read is not passed over, and it is refused if its text has the old name of the rapify section as an inline key. Exceptions: lints of stringtables in project.toml are dropped silently beside a lints.toml, the old name of the launch section is replaced in strings too, and a comment can make addon.toml refused.", "quantifier": "all TOML documents without repeated keys, all texts of the files beside project.toml, all numbers of profiles and lints", "why_tests_cant": "The documents are unbounded trees of keys and values; tests read a few files, and cannot show that unknown keys never matter or that a default holds whatever else is said.", "anchors": ["libs/common/src/config/project/mod.rs: ProjectConfig::from_file, TryFrom<ProjectFile>", "libs/common/src/config/project/hemtt/mod.rs: HemttSectionFile::into_config", "libs/common/src/config/project/{files,lint,signing,version}.rs", "libs/common/src/config/project/hemtt/launch.rs: LaunchOptionsFile", "libs/common/src/config/pdrive.rs: PDriveOption::deserialize", "libs/common/src/config/addon/mod.rs: AddonConfig::from_file, AddonFile"]}
{"id": "C94", "title": "Verifying an archive: what is verified, and that releases verify", "statement": "`hemtt utils verify` says \"Verified!\" exactly if the archive, the public key and the signature of the key's authority that lies beside the archive can be read, the authority has no slash, and the signature fits the archive. After a successful signed release, with whatever addons, every archive of the release is found good, with no warning, with the public key that lies in the keys folder of its mod (an optional addon that is a mod of its own has its own). Two archives made by HEMTT that the same key and signature files verify are the same bytes unless two texts have the same digest. Known limits, each with a witness: a verification that fails still ends with exit status 0; an archive without a prefix gets both a line that verification failed and \"Verified!\"; a changed stored checksum is only warned about.", "quantifier": "all disks, paths, archives, keys and signatures; all projects, addons, settings of the release and states of the output folder; both signature versions; any 20 byte digest function and any source of RSA keys", "why_tests_cant": "A test verifies one signed archive; that every archive of every release verifies joins packing, placing, signing, key files and verification for all inputs.", "anchors": ["bin/src/utils/verify.rs::execute", "bin/src/utils/inspect.rs::bikey", "bin/src/utils/inspect.rs::bisign", "bin/src/modules/sign.rs::pre_release", "libs/signing/src/public.rs::verify", "libs/signing/src/private.rs::sign"]}
{"id": "C95", "title": "A photoshoot takes every missing picture, whatever the timing", "statement": "In a photoshoot HEMTT, the extension and the game talk over a socket, each at its own pace. Whatever the order of their turns: HEMTT asks for all previews and to take them, then for each weapon once, then tells the game to stop, in this order and nothing else; pictures are made only where the project wants them, and that of a weapon never replaces one that is there; when the game is told to stop, the picture of every weapon and every preview is there. HEMTT fails in no way but by reading the length of a message whose rest is not there yet, and not even so if no side looks for a message between the two writes of one. If all weapons are uniforms, the session ends after a bounded number of rounds, with all done, unless a message was torn. Known limits, each with a witness or for all sessions: a torn message makes HEMTT panic or the extension stop; with a weapon that is not a uniform the session never ends; a profile below a folder named autotest makes HEMTT panic.", "quantifier": "all schedules of HEMTT's loop, the extension's reading and sending, and the game's scripts; all sets of weapons and previews, all sets of pictures that are there, all encodings of messages that can be read back and are shorter than 4 GiB", "why_tests_cant": "The outcome depends on the interleaving of three programs over a socket that does not block; a test sees a few of unboundedly many schedules, and that the session ends under every fair one is a statement about infinitely long runs.", "anchors": ["bin/src/commands/photoshoot/mod.rs: Photoshoot::next_message, prepare, incoming", "bin/src/controller/mod.rs::Controller::run", "arma/src/lib.rs::init", "arma/src/photoshoot.rs", "bin/dist/profile/autotest/photoshoot.VR/init.sqf", "bin/dist/profile/autotest/photoshoot.VR/functions/fnc_uniforms.sqf", "arma/addons/main/functions/setMission.sqf"]}
{"id": "C96", "title": "A photoshoot is for the missing pictures the configs name", "statement": "With a main prefix set, a photoshoot looks for the picture of a class of CfgWeapons (entry picture) or CfgVehicles (entry editorPreview) exactly if the first string entry of that name is a path of the project - the main prefix between backslashes, the prefix, and the path in the project - at which the project has no file; each class is looked for once, and \"\\main\\prefix\\rel\" stands for rel. The search panics exactly if such a path cannot be joined to the project's. After a session that was not cut short, in which all weapons are uniforms, every class that names one picture of the project has it. Without a main prefix nothing is looked for. Known limits, each with a witness: another prefix that begins with the project's counts as the project's; names and paths in other case, and paths without the first backslash, are not seen; a path that ends with a backslash makes HEMTT panic.", "quantifier": "all configs in any number and order, all prefixes, all sets of files; all schedules of the session", "why_tests_cant": "The configs are unbounded trees and the session's schedules unbounded sequences; a test has a few of each, and the photoshoot command itself needs the game to run.", "anchors": ["bin/src/commands/photoshoot/mod.rs: find_weapons, weapons_from_config, find_previews, previews_from_config", "bin/src/modules/rapifier.rs::AddonConfigs", "libs/workspace/src/path.rs::WorkspacePath::join"]}
{"id": "C97", "title": "The editor shows what the configs give with the files as saved", "statement": "The language server checks every addon's config when a workspace is opened and again whenever the editor reports that a file among the config's sources was saved. However the checks of different configs interleave, provided the editor saves only while no check is running, saves only files that, if they matter to a config, its last check listed as sources, and the messages of the server's tasks arrive in the order of the tasks: when nothing is going on any more, the editor shows at every URL exactly the findings, in files with that URL, of all configs with the files as they are on disk - nothing stale, nothing missing, nothing twice. From any state the server can come to rest. Under every schedule, anything shown at a URL was found at some earlier moment, in the file with that URL, by a check of one of the configs. Outside these conditions stale errors can stay for good: when messages of a later check overtake those of an earlier one; when a file is saved while its config is being checked; and when the preprocessor rejected the config itself, because the config is then not among its sources and saving it is ignored.", "quantifier": "every project, every outcome of checks, every order of hash maps and sets, and every schedule of saves, checks and messages", "why_tests_cant": "The tasks of the server interleave freely; a test sees one schedule.", "anchors": ["hls/src/diag_manager.rs: DiagManager, DiagWorker, sync", "hls/src/config/mod.rs: ConfigCache, check_addon, check_addons, did_save, workspace_added", "hls/src/workspace.rs: to_url"]}
{"id": "C98", "title": "URLs of files in the editor", "statement": "In the language server different files of a workspace folder have different URLs, provided no name contains a backslash. The root on disk of a folder is the path that its URL writes, however it is escaped, and the URL the server writes for a file is a way to write its path. A URL under a folder is taken to belong to it, in whatever order the open folders are looked at, exactly if the path of no other open folder begins with that folder's path; then the server finds a file again by the URL it writes for it if all names in its path consist of letters, digits, '-', '.', '_' and '~', and finds another file, never the right one, if not, because the path of the URL is not decoded. A URL that begins with the path of no open folder panics the request. After any history of changes the open folders are those whose last mention was that they were added, and that could be opened. Outside these conditions: a folder whose path begins like another's takes its files in some orders; a nested folder can panic requests for files beside it; a file in a folder with a longer name is taken for another file; two files whose paths differ in a backslash have one URL.", "quantifier": "all sets and orders of open folders, all paths and URLs, and all histories of changes to the folders", "why_tests_cant": "Names with escapes, folders with common beginnings and the order of a hash map are unlimited.", "anchors": ["hls/src/workspace.rs: EditorWorkspaces::guess_workspace, changed, EditorWorkspace::new, join_url, to_url", "hls/src/sqf/mod.rs: SqfCache::cache", "hls/src/config/mod.rs: did_save"]}
{"id": "C99", "title": "Hovering over a command shows that command", "statement": "In a script whose expressions are written in order, each followed by at least one token, with a token between a left operand and its operator: when the cursor is in the name of a command - behind its first character if the command's expression begins with the name - the language server describes exactly that command, however deeply it is nested in arrays, blocks and other commands. Whatever it finds anywhere is part of the script, and the cursor is behind the start of what it finds and before the end of the token after it. At the first character of an expression nothing of the expression is found, and neither is anything in an expression that ends where the text ends. Hovering over an operator written right behind its left operand shows nothing, and a command from an included file is described when the cursor is at the same place of the file at hand.", "quantifier": "all syntax trees, all mappings from the preprocessed text to the files, and all places of the cursor", "why_tests_cant": "Trees nest without limit and every place of the cursor in every layout matters.", "anchors": ["hls/src/sqf/locate.rs: locate_expression", "hls/src/sqf/hover.rs: SqfCache::hover", "libs/sqf/src/lib.rs: Expression::full_span", "libs/workspace/src/reporting/processed.rs: Processed::mapping"]}
{"id": "C100", "title": "The check for a newer release reports from an answer at most half a day old, asks rarely, and what an interrupted write leaves behind", "statement": "At any point of any history of runs of a released build, if no run was interrupted while it wrote down the answer of the releases service: a run reports a newer release exactly if the last answer written down (by this run, if it asks) names a version above the program's own, and then names that version; it fails if nothing was written down in the last half day and the service does not answer. The answer that counts was really given by the service and is at most twelve hours old, or is from this very run. As long as the clock is not set back, more than twelve hours pass between a written answer and the next request. Boundary: a run interrupted after the file was created and before anything was written makes every run of the next half day panic; a partial write can make later runs report a version nobody released or miss one; a file time in the future suppresses requests.", "quantifier": "All histories of runs, with any times, any answers or failures of the service, any interruption points, any version order.", "why_tests_cant": "Depends on the times of all earlier runs and on where one of them was interrupted; a test sees one run with one file.", "anchors": ["bin/src/update.rs: check", "bin/src/lib.rs: execute"]}
{"id": "C101", "title": "The check for byte order marks reports exactly the marked files among those it looks at", "statement": "For every project: a file is reported exactly if it is inside addons or optionals, its path (with the project's own folder) nowhere contains .hemttout, its name has an extension other than p3d, rtm, bin and paa, and its first three bytes are EF BB BF; no file is reported twice. The check fails exactly if one of the files it looks at cannot be opened. Boundary: a mark in a file without extension, such as $PBOPREFIX$, is not reported; in a project below a folder whose name contains .hemttout nothing is reported.", "quantifier": "All project folders, all sets of files with any names and contents, readable or not.", "why_tests_cant": "Ranges over every file name and every tree; a test checks a few files in one project folder.", "anchors": ["bin/src/modules/bom.rs: BOMCheck::check"]}
{"id": "C102", "title": "From the text of a script to the archive of its addon", "statement": "Take an addon with a script that has no directives, whose text (under 2 GiB without comments) the parser reads as a tree without array literals of more than 65535 elements and without `{..} else {..}` as an array element, and against which the analysis reports no error. Suppose every conversion of the build succeeds, none reads what another makes, and neither exclude patterns nor another file with the same name in another case keep the script or its compiled form out. Then, however the conversions are scheduled, the archive of the addon can be read; under the script's path it has the file's content as it was, and beside it the .sqfc file, which, read back and with its tables looked up, is code whose source is exactly the script's text without comments, names no other source file, and does what the tree does in every engine that follows the documented laws.", "quantifier": "All addons, scripts, schedules of the conversions, settings, walk orders and hash functions.", "why_tests_cant": "Composes lexer, parser, optimiser, compiler, compressor, writer, thread schedule and packing; tests check each of them on samples and none checks what the game finds in the archive.", "anchors": ["bin/src/modules/sqf.rs: SQFCompiler::pre_build", "libs/sqf/src/compiler", "libs/sqf/src/parser", "bin/src/modules/pbo.rs: build", "libs/pbo/src/write.rs"]}
{"id": "C103", "title": "A new project holds what was answered", "statement": "hemtt new refuses, changing nothing, if it is not run at a terminal or if something with the project's name is there. Otherwise a run that completes leaves exactly the folder with addons, .git, .hemtt, .hemtt/project.toml, .gitignore (with *.pbo, .hemttout, hemtt, hemtt.exe and *.biprivatekey) and, unless \"None\" was chosen, LICENSE. If the answers hold no quote, backslash, control character or \"[hemtt.launch]\" and the prefix is not empty, every later command reads from it the name, the prefix and the main prefix that were answered, with the default for every other setting. A license in which neither \"{author}\" nor \"{year}\" stands is written as it is; the places in the licenses that come with hemtt are in upper case and so are never filled in. A run that fails or is killed anywhere leaves nothing, or a folder that every later run refuses and does not change; its project file is then the beginning of the one meant, which can be readable and lack the main prefix. An answer with a backslash, a quote or \"[hemtt.launch]\" can be read as something else.", "quantifier": "all answers, all license texts, all points at which the run can stop including within a write, all TOML readers that read lines of key = \"value\" as the standard says", "why_tests_cant": "The answers are any text a user types and the interruption can come at any byte; the tests run the command once with fixed answers.", "anchors": ["bin/src/commands/new/mod.rs: execute", "bin/src/modules/new/license.rs: Licenses::select", "bin/src/modules/new/licenses/*.txt", "libs/common/src/config/project/mod.rs: ProjectConfig::from_file"]}
{"id": "C104", "title": "hemtt value prints the project's values, and list names exactly the ones there are", "statement": "In a project that is accepted and whose version is known, hemtt value list prints exactly the names that are answered; any other name gives status 1 and prints no value. The version, its short form and its parts are the same numbers in decimal notation, and what project.version prints is read back as the version used in the build. project.signing.authority is the name of the project's key in the folder keys. The other names print the settings as they are used: each pattern of files on its own line, each property with its value. If the version cannot be found, or a commit is needed and there is none, nothing is printed for any name, not even the list, so a project just made with hemtt new has no values. The properties come in no fixed order from one run to the next, and a setting that is absent is printed like one that is empty.", "quantifier": "all project settings, names asked for, version files, commits and orders of a hash map", "why_tests_cant": "The names are any text, the settings any project and the order of the properties differs from run to run; a test asks a few names in one project.", "anchors": ["bin/src/commands/value.rs: execute, version", "bin/src/context.rs: version_check", "bin/src/modules/sign.rs: get_authority", "libs/common/src/sign_version.rs: Display"]}
{"id": "C105", "title": "Projects do not disturb each other's temporary files", "statement": "For projects in one first folder (or on one drive), at least two folders deep, without underscores or backslashes in the names behind the first and not called profile right in it: whatever runs of other projects come in between or at the same time, the temporary folder of a project holds what its own runs have put there. Opening a project empties its own temporary folder and touches nothing else, in particular not the profile for the game. Projects that differ only in the first folder or the drive, or in having a folder where the other has an underscore, share a temporary folder, so that opening one removes the files of the other; a project right below the root empties the folders of all projects; one called profile in the first folder empties the profile; the profile is shared by all projects.", "quantifier": "all places of projects, all interleavings of the runs of any number of projects, all paths and contents", "why_tests_cant": "The interference shows only for particular pairs of places and particular schedules of two runs; tests run one project at a time.", "anchors": ["bin/src/context.rs: Context::new", "bin/src/controller/profile.rs: setup", "bin/src/modules/binarize/mod.rs: setup_tmp"]}
{"id": "C106", "title": "hemtt utils inspect recognises what HEMTT writes, whatever it is called", "statement": "A file whose name has a known extension in lower case is inspected as what the extension says. Any other file is told by its contents: every archive and every texture HEMTT writes is recognised, and every signature and public key is recognised and shown with the values it was written with, unless its authority has GGAT from the third character; a public key is never taken for a signature. A file without NUL bytes, such as a text file of six bytes or more, is said to be unsupported, or, if it is called .bikey or .bisign, is an error. Known limits: a private key, and any other file whose number after the first NUL does not match the bit length that follows, ends in a panic; a key with GGAT from the third character of its authority is taken for a texture; a file under six bytes is an error.", "quantifier": "every archive, texture, key and signature written, every file name, every file contents in the classes named", "why_tests_cant": "The detection tries formats one after another on arbitrary bytes; that none of the earlier tests catches a file of a later kind has to hold for every authority, key length and number.", "anchors": ["bin/src/utils/inspect.rs: execute, bikey, bisign", "libs/signing/src/signature.rs: BISign::read", "libs/signing/src/public.rs: BIPublicKey::read", "libs/pbo/src/write.rs: WritablePbo::write", "libs/paa/src/paa.rs: Paa::write"]}
{"id": "C107", "title": "hemtt utils pbo inspect lists an archive truthfully and warns of a wrong checksum or order", "statement": "For every file that opens as an archive, the listing has one row for each entry of its table, in order, with name, kind, sizes and time stamp; it says sorted, and leaves out the warning, exactly if the names are in order ignoring case; and it warns of the checksum exactly if the stored one is not the computed one. An archive as HEMTT wrote it (names distinct ignoring case) is listed with its files, their lengths and its properties and without a warning; with any other 20 bytes in place of its checksum it is listed likewise, with the warning; the checksum of one archive on the contents of another is warned of unless SHA-1 collides. Known limits: an archive of another tool with a forward slash in a name panics, and two names differing in case only cause a false warning.", "quantifier": "every byte string, every history of API calls building an archive, every stored checksum, every digest function of 20 bytes", "why_tests_cant": "The computed checksum is of the table and files put together again from what was read; that this gives the bytes written holds for every set of files, properties and order or not at all.", "anchors": ["bin/src/utils/pbo/inspect.rs: inspect", "libs/pbo/src/read.rs: from, gen_checksum, is_sorted", "libs/pbo/src/write.rs: write"]}
{"id": "C108", "title": "Inspecting and converting pictures tells what is stored and overwrites nothing", "statement": "`hemtt utils paa inspect` shows, for every PAA file that can be read, its format and one row for each map in the stored order, with its height, format, the size of the data as stored, its width without the packing bit and whether it is packed; a picture that hemtt wrote (narrower than 32768, lower than 65536) is one unpacked DXT5 map of its size. `hemtt utils paa convert` of such a picture saves a picture of the same size, made of exactly the coded data, to the output; for a file whose first map is packed with LZO it decodes what the stream stands for, if that is as long as one byte for each pixel (half of one in DXT1), as it is for whole blocks whenever both sides are multiples of four. The output is never overwritten and no other file changes, however the command ends; a missing or unreadable PAA is an error. Status 0 does not mean a picture was made (the output may exist or its kind be unknown); a file without maps panics, and so does a packed DXT5 map one of whose sides is not a multiple of four.", "quantifier": "all pictures, all PAA files, all LZO streams, all states of the disk, all DXT decoders and picture encoders", "why_tests_cant": "There are infinitely many files, packed streams and sizes; a test converts a few pictures and cannot show that nothing is overwritten in any state of the disk.", "anchors": ["bin/src/utils/paa/convert.rs: execute", "bin/src/utils/paa/inspect.rs: inspect", "libs/paa/src/mipmap.rs: MipMap::get_image, width, is_compressed", "libs/paa/src/paa.rs: Paa::read"]}
