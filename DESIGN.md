# Formal model of HEMTT in Rocq: design

Source: `/repo` (BrettMayson/HEMTT at the pinned commit), read as text. Model: `rocq/theories`, one directory per
area. In each area `Model.v` transcribes the code function by function (every definition cites file and lines and
states its simplifications), `Spec.v` is the small independent specification the theorems talk about, other files hold
the proofs, and `Props.v` (or, where one file would get too large, a file named in MANIFEST.json's area) holds the property theorems,
their non-vacuity examples and `Print Assumptions`.

## Conventions

* A byte is an `N`; a byte string is `list N`; where a theorem needs bytes to be below 256 it says so.
* Rust `String`s are their UTF-8 byte lists; `read_cstring`'s validity test is a real UTF-8 validator.
* Panics, `unreachable!`, failed `assert!`s and integer overflow are explicit error values of the model.
* Loops are structural where possible; otherwise they carry fuel with an out-of-fuel value distinct from every result,
  and a theorem shows the value is not reached.
* `to_lowercase`, SHA-1, floating point arithmetic, texture encoders and the like are function parameters, universally
  quantified in the theorems; assumptions about them (e.g. 20-byte digests) are explicit hypotheses.
* A property that is false of the code is answered with a `_refuted` theorem giving the witness, next to the
  theorem for the exact condition under which it holds.

## Plan per property

| id | modelled | how |
|----|----------|-----|
| C01 | `io.rs` LEB128 reader/writer over byte lists | induction on the value divided by 128 |
| C02 | `io.rs` C strings, UTF-8 validator | induction on the string |
| C03 | PBO writer and reader over byte lists, file map as an arbitrary permutation | round trip, induction over headers and files |
| C04 | checksum as an arbitrary function of bytes | byte-stream equality; refutation without properties |
| C05 | stable sort of an arbitrary iteration order | uniqueness of sorted permutations; refutation for case variants |
| C06 | `file`, `file_offset` | prefix sums over headers |
| C07 | `ReadablePbo::from` on arbitrary bytes | inversion of the reader |
| C08 | operations on `WritablePbo` | induction over the history against an abstract finite map |
| C09 | key and signature codecs, fixed width little-endian numbers | round trip |
| C10 | `sign`, `verify`, `pad_hash`, modular exponentiation | Fermat's little theorem, CRT |
| C11 | `verify` | inversion; forged key witness |
| C12 | rapify and an independent raP reader that follows offsets | induction over the tree |
| C13 | `rapified_length`, asserts as errors | induction over the tree |
| C14 | string literal parser | induction over the string |
| C15 | number parser | induction over the digits |
| C16 | `lzo1x_1_compress` and `lzo1x_decompress_safe` as state machines | intermediate token stream, simulation |
| C17 | same | size accounting invariant |
| C18 | same | invariant of the decoder for arbitrary input |
| C19 | tokeniser, shunting-yard, postfix evaluator over an abstract arithmetic | grammar-derived expressions, induction |
| C20, C21 | `Version` | decimal round trip, order laws |
| C22 | `Prefix::new` | case analysis, split/join lemmas |
| C23, C24 | `IfStates` and the directive handlers | block grammar, induction; refutations |
| C25 | `Defines` | stack discipline invariant |
| C26 | `Pragma` | history induction |
| C27, C28 | SQF AST, compiler, instruction stack machine | compiler correctness by simulation |
| C29 | serializer and an independent decoder | round trip |
| C30, C31 | optimizer | semantics preservation by induction; refutation |
| C32 | precedence ladder | unique tree theorem |
| C33 | `Processed` token appending | invariant over the output tree |
| C34 | `LineCol`, line table | induction over the text |
| C35 | p3d codec | round trip |
| C36 | paa codec | round trip; refutation |
| C37 | `Executor` with modules as arbitrary state transformers | trace theorem |
| C38 | `LintManager` | case analysis over arbitrary lint sets |
| C39 | `Addon::scan` | list induction |
| C40 | output path computation | injectivity; refutation |
| C41, C42 | stringtable packages | permutation and counting by structural induction |
| C43 | case fixer state machine | invariant over the characters |
| C44 | `SQF` script version test of `version.rs` | exact characterisation; refutation |
| C45 | the config parser as chumsky combinators over text | declarative grammar, soundness by structural induction, determinism |
| C46, C47 | the lexer (`config.pest` and `parse/mod.rs`) | induction over the text; every token's text and place |
| C48, C49 | the preprocessor on plain text, on one include | simulation over lines |
| C50 | the preprocessor's mutual recursion with fuel | lexicographic induction on macro number, file number and stream length; for the refutations strong induction on the fuel |
| C51 | the three digests of a signature over an archive's files | inversion of the reader plus the hashing functions |
| C52 | the LZO decoder on concatenated input | invariant: what follows the end marker is not looked at |
| C53 | SQF parser, empty statements and comments | induction over token lists |
| C54 | sign module paths against PBO module paths | injectivity of names |
| C55 | stringtable text through quick-xml's escape and unescape | induction over characters; refutations |
| C56 | `modules/pbo.rs` building an addon, composed with the PBO writer and reader | induction over the listing, then C03 |
| C57 | the LZO decoder against a declarative LZO1X format | both directions, induction over instructions |
| C58 | directive handlers on malformed directives | inversion per directive, induction over nesting |
| C59 | the SQF lexer (`parser/lexer.rs`) | token grammar on texts, sound and complete; uniqueness |
| C60 | lexer and parser together, text kept with blocks | grammar unchanged by places; a part of a text reads as it did within the whole |
| C61 | `Expression::source` | induction over the grammar of the original text |
| C62 | `Config::analyze` with the ten lints, `rapify`'s error check | induction over trees: nothing unwritable passes the lints; C12, C13 for the file |
| C63 | lints c02, c03 | specification by paths and bodies; grouping lemma for the hash map |
| C64 | lints c04, c05 | specification by the list of class headers; exactness by induction |
| C65 | lints c01, c06 to c10 | exactness by the walk lemma |
| C66 | `Version::from(f32)` (f32 as integer steps of 2^-149 with rounding to 24 places), `get_patches`, `required_version`, `post_build` of the SQF module | error bound of the rounding; last/first-maximum lemmas; permutations |
| C67 | `Statements::required_version` and s01 over the expression trees; command versions are a parameter | induction over trees; fold-maximum |
| C68 | the walk of `analyze/mod.rs`, `walk_expressions`; runners are a parameter | induction over trees; the grammar of C32 for the absence of pooled arrays |
| C69 | s02 through the lint manager and the walk; events and places are parameters | equivalences from C68; induction on the depth for the count |
| C70 | s08 format arguments: `get_format_problem` over characters, the runner, through the walk of C68. | A grammar of format strings (`placeholders`, `stray`) is proved total and the scanner equal to it; then each verdict as an equivalence. |
| C71 | s21: flattening of `if` conditions, extraction and pairwise check of comparisons, f32 bits of non-negative finite numbers. | A meaning of conditions over values of variables; reports are sound for conditions with the variable first. |
| C72 | s23: state machine over statements and the `params` runner. | Invariants of the state over all prefixes of the statements; case analysis of one step. |
| C73 | s24: pending marker updates over statements. | Induction over prefixes: pending is the updates of the last stretch, found those of the closed ones. |
| C74 | Text that misuses macros and blocks left open (Preproc/MisuseSpec.v: rules for `misuse`, `bad_use`, `bad_args`, `stops`, `to_end`) | Simultaneous induction over the rules, on top of the lemmas that run well-formed text (C22, C23); witnesses for the exceptions. Misuse next to a stringifying `#` and directives inside macro bodies are not covered. |
| C75 | The six lints that suggest a replacement text (s03, s05, s06, s07, s18, s20), over the AST of the parser and `Expression::source` | `better` relates the reported expression to the intended one; the suggested text is lexed and parsed by the models of C37/C64 and shown to give that tree; equality of evaluation in every interpretation satisfying the documented laws of the commands (`commands`); a concrete interpretation meets them, and witnesses show where the suggestion is another program |
| C76 | s04, s09, s11, s17 and s22, run by the lint manager of C38 over the walk of C68 | Each finding is equivalent to a place in the script and a condition on settings and wiki; evaluation laws as in C75 for the two rewrites; witnesses for word operators and the suggested string |
| C77 | `Common/LaunchModel.v`: the profile loop with its fuel, overlay, sorting and de-duplication, the choice of profiles by name | chains as an inductive relation; the loop follows a chain, so it ends exactly if the chain does; the endless case by the pigeonhole principle on names |
| C78 | `Bin/LaunchLineModel.v`: paths of both platforms, the regular expressions as matchers, presets, DLC names, the argument list and the number of instances; the file system is a parameter | links never overlap, so every one is found; sorted lists without repetition are unique; the run unfolded to its conditions |
| C79 | `WorkspacePath::locate`, `as_virtual_str`, `with_extension`, the case-insensitive search, prefix discovery, both kinds of P drive | path texts against lists of names: a relation for following components, one for being below a prefix up to case, one for a file differing in case; each branch of the search order as its own theorem, order independence by uniqueness of the matching prefix |
| C80 | `Bin/BinarizeModel.v`: `check` and `pre_build` of the binarize module, `P3D::missing` with its shared cache; reading models, globbing and lookup are parameters | the cache only ever holds verdicts that are right for some user of the path (invariant over all models); selection by induction over the walk, entry by entry |
| C81 | selection of configs and scripts, their outputs, and the conversions as arbitrary programs that read, then write, interleaved action by action (`par_iter`), with abandonment after an error | invariant relating each state to the writes each job has done alone; commuting writes to different cells; well-founded order for termination; concrete schedules for the refutations |
| C82 | `rapify` of bin/src/modules/rapifier.rs as the composition of the preprocessor, `Processed::new`, the config parser, the lints and the raP writer (Config/FileModel.v) | Composition of C45, C48, C33, C62–C65 and C12: the grammar makes only storable trees without error nodes (induction over derivations), a file without directives reaches the parser as its text without comments; the outcome is a function of the tree |
| C83 | The compiler of C27 on what the parser of C60 reads (no new model) | `sound` trees (spans inside the text, valid names, short arrays): the grammar gives them from good tokens, the optimiser keeps them, the compiler on them only returns or runs out of room; growth of the constant pool by induction on the depth for the boundary |
| C84 | bin/src/modules/sqf.rs `pre_build` for one file as the composition of preprocessor, `Processed::new`, lexer, parser, optimiser, compiler, serialiser (Sqf/ScriptModel.v); the analysis is a parameter | Composition of C48, C33, C60, C31, C30, C83, C29 |
| C85 | version section, sources of the version, the version kept for the run (Common/ProjectVersionModel.v) | exact acceptance and value; induction over histories of questions and hooks; file and commit are parameters |
| C86 | the choice of addons of `dev` and `build`, the clearing of the folder, links, PBOs, copied files (Bin/OutputModel.v over Bin/ExecModel.v), with copies going through links | the choice is equivalent to an English-like predicate; the folder at the end is characterised path by path, by decomposing the run at its three writing steps; data loss through a link as witness |
| C87 | the whole `release` run: output folder, keys, signatures, archives and releases (Bin/OutputModel.v) | the run is cut at its writing steps; the folder before the archive is shown equal to an inductive list of what is released; any way to end is covered; independence of the past by a simulation |
| C88 | `unpack.rs`, `extract.rs` over a disk of files and folders given by path components (`..`, `.`, empty pieces, absolute names resolved as unix does) and the archive reader | the disk below the folder described exactly (invariant over the property loop, then over the headers); frame argument for what is outside; composed with C03/C06 for packed and foreign archives; five counterexamples |
| C89 | The comment pass of `from_reader`, the lines quick_xml writes, the comment pass of `to_writer`, the sort command and the sorted lint (Stringtable/FileModel.v) | The reader is followed line by line over a file given as (comments, line) pairs; the comments found are, up to order, one per commented line, and each line of the new file matches only its own; sorting permutes the (key, line) pairs; six witnesses for the boundary |
| C90 | `Bin/HookModel.v`: `run_folder`, `run`, `run_file`, `init` of hook/mod.rs, `HEMTT.script`; scripts are arbitrary trees of effects on the disk and the memory layer, the kept version is the one of C85 | soundness and completeness of the fuelled interpreter against a big-step relation (`HookSpec.v`), by induction on fuel and mutual induction on derivations; order, freshness of versions, memory by induction on the relation |
| C91 | Bin/RequiredProps.v, RequiredSpec.v: the executors of the four commands (Bin/ExecModel.v) with what is known of the addons' versions as a part of the world that only the conversion of configs changes; the version lints of Sqf/WalkModel.v on it | the steps of every command with every flag are listed by computation, the invariant by induction on the run; the lints by C69's characterisation; `_refuted`: no too new command or event is ever reported in a build |
| C92 | Bin/ArchiveSpec.v, ArchiveProofs.v, ArchiveProps.v: the two stages of conversions (Bin/ConvertModel.v) on a store that the listings of the addons show, then build_pbo of Bin/PackModel.v on the listing of the last store; Config/FileModel.v for the config.bin | C81's as-in-turn theorem twice, an invariant on which files a stage changes, then C56 on the last listing and C82 for the text; the schedule is any run of the step relation |
| C93 | Bin/SettingsModel.v: documents as trees, the decoders of every section of project.toml, launch.toml, lints.toml and addon.toml, and what is made of them; the TOML parser is an argument | every decoder reads exactly its kind of value (an iff per decoder), fields and sections are lifted to paths in the document, C77 and C85 give profiles and version; uniqueness of what a document says gives the converse and that unknown keys do not matter |
| C94 | the verify command (utils/verify.rs, the readers of inspect.rs) over a disk; signing of files as modules/sign.rs does; releases of Bin/OutputModel.v with PBOs of Bin/PackModel.v | inversion of the command; composition of C03, C04, C09, C10, C11, C56 and C87 over the steps of a release |
| C95 | the photoshoot session: Photoshoot and Controller::run, the extension's loop, the scripts of the photoshoot mission, a socket each way with the two writes of each message apart | invariant over phases of the session, preserved by every turn; a measure that every round makes smaller; framing relation between bytes on the way and messages |
| C96 | find_weapons and find_previews of the photoshoot command over the config trees of Config/RapModel.v, paths as in Workspace/PathModel.v | induction over the trees against a declarative reading of them; composition with C95 |
| C97 | The language server's diagnostics of configs (diag_manager.rs, config/mod.rs): worker, cache of sources, checks action by action, publishing tasks, the editor's view, under an arbitrary schedule; outcome of a check, URLs and hash orders are parameters | Invariant over orderly schedules (entries of a config are those of its last check or being replaced; pending messages end in the right view); truthfulness by an invariant over all schedules; schedules with stale errors computed |
| C98 | The workspaces of the language server (workspace.rs): escapes of the urlencoding crate, to_url, join_url, guess_workspace, changes of the folders | Injectivity of the escapes by induction; the choice among the folders characterised over all permutations; lost, panicking and mistaken URLs computed |
| C99 | The search for the expression at the cursor (locate.rs) over the syntax trees of Sqf/Ast.v, with the mapping to the files as a parameter | Induction over trees: the range of each ancestor of the command contains the cursor and those of earlier siblings do not |
| C100 | `Bin/UpdateModel`: the file `latest`, its time, the answer of the service, and an interruption while it is written; parsing and order of versions are parameters | induction over histories of runs; `UpdateSpec.last_answer` says which answer counts |
| C101 | `Bin/BomModel`: selection of files by folder, path and extension, the three bytes, failure to open | exact characterization against `BomSpec.looked_at`, which is written with concatenations only |
| C102 | the composition of `Sqf/ScriptModel`, `Bin/ConvertModel` and `Bin/PackModel`; the link is `does_compile`: the job that converts a script writes what `compile_file` says | C84, C81, C92 and C56, with a lemma that more fuel changes nothing |
| C103 | Bin/NewModel: commands/new/mod.rs as a list of operations on the new folder, each of which can be the one that fails or is cut off; the TOML reader is a parameter that reads lines of key = "value" as toml.io says (NewSpec) | The written text is a document in the sense of the specification and its rewriting of [hemtt.launch] changes nothing, so C93's reader gives the answers; operations away from a path do not change it; a small reader meets the hypothesis |
| C104 | Bin/ValueModel: commands/value.rs over the settings of C93 and the version of C85; the check of the version in context.rs | Case analysis on the names; the version kept after the check is what is printed; composed with C85's reading back, C103's new project and the place of the key |
| C105 | Bin/TempModel: the name of a project's temporary folder and its removal in context.rs, the profile in profile.rs; what runs write there is arbitrary | Non-interference by induction on the interleaving; names joined with underscores can be split again if they have none |
| C106 | `bin/src/utils/inspect.rs`: the choice by extension and by the first bytes, with the models of reading and writing keys, signatures, archives and textures | theorems about what the writers give, `inspect` applied to it; the boundary as `_refuted` theorems (panic of the signature reader on private keys and other binary files) |
| C107 | `bin/src/utils/pbo/inspect.rs` over the reader of `Pbo/Model.v` | inversion of the reader (C07) for every input; for written archives the round trip of C03/C04 with the digest replaced by any other |
| C108 | `Paa/ConvertModel`: `utils paa inspect` and `convert`, `MipMap::get_image` over the LZO model; decoder and encoders are parameters | from the C36 round trip and the C57 format of LZO; case analysis on the disk; refutations for maps of odd size, without maps, and for the status |

## Trusted base

* **Coq 8.16.1's kernel** (and its VM for the examples' `vm_compute`; `coqchk` re-checks them without it).
* **Axioms: none.** `Print Assumptions` answers *Closed under the global context* for every theorem in MANIFEST.json;
  each `Props` file prints it at its end. The build's verdict lists names `Coq.ssr.ssrunder.Under_rel.*`: these are the
  fields of an opaque module in Coq's own ssreflect, loaded by the standard library's tactics; no theorem depends on them.
* **The transcription.** Each definition cites the lines it models. It is checked by reading, and by the mutation runs in
  `seeded/LOG.jsonl`, not by execution.
* **Meaning of library code the model writes down itself**, from its documentation:
  - chumsky 0.9 combinators (ordered choice, greedy repetition, backtracking) in `Config/ParseModel.v`, `Sqf/ParseModel.v`;
  - pest's PEG operators in `Preproc/LexModel.v`;
  - quick-xml's text escaping and unescaping in `Stringtable/Model.v`, and the lines its serializer writes in `Stringtable/FileModel.v`;
  - `slice::sort_by` as the (unique) stable sort, `binary_search_by` by its contract, `HashMap` iteration as an arbitrary
    permutation, `IndexMap` as insertion ordered;
  - `byteorder`, `String::from_utf8`, `char::is_whitespace`, `str::split`/`trim`/`strip_prefix`, decimal `Display` of
    integers, wrapping and overflow-checked integer arithmetic (`checked : bool` says whether overflow panics).
* **Parameters** (arbitrary functions, quantified in the theorems; what is assumed of them is a visible hypothesis):
  `to_lowercase`, SHA-1 (20 bytes), float parsing, printing, comparison and arithmetic, the DXT coder (output size),
  glob matching, what a module of the executor does, what a lint reports, file lookup and file contents, Unicode letters,
  the interpretation of SQF commands, the TOML parser (its documents have no key twice).

## What is modelled

| directory | code |
|-----------|------|
| `Base` | byte and text helpers standing for the Rust standard library; no project code |
| `Io` | `libs/common/src/io.rs` |
| `Common` | `libs/common/src/{math,version,prefix}.rs`, `config/project/hemtt/launch.rs`, `config/project/version.rs` and the version kept for a run |
| `Pbo` | `libs/pbo/src/{read,write,file,error}.rs`, `model/*`: headers, properties, checksums, sorting, reading; `bin/src/utils/pbo/{unpack,extract,inspect}.rs` |
| `Signing` | `libs/signing/src/{lib,private,public,signature}.rs`, `common/src/sign_version.rs`: codecs, hashing, sign, verify |
| `Config` | `libs/config/src/{model,rapify,parse,analyze}`: tree, raP writer with its length prediction, text parser; `analyze`: all lints, the walk that runs them |
| `Lzo` | `libs/lzo/src`: compressor, safe decompressor |
| `Preproc` | `libs/preprocessor/src`: lexer, definitions, if-states, pragmas, directives, macro calls, includes, whitespace |
| `Sqf` | `libs/sqf/src`: lexer, tree, parser, `Expression::source`, compiler, serializer, optimizer; `analyze`: the walk and the lints named in the table of properties |
| `Workspace` | `workspace/src/position.rs`, `reporting/{files,processed}.rs`, labels of `reporting/diagnostic`; `path.rs`, prefix discovery of `lib.rs`, `pdrive.rs` but for the search for a P drive |
| `P3d`, `Paa` | `libs/p3d/src`, `libs/paa/src`: readers and writers; `bin/src/utils/paa`: inspect and convert |
| `Stringtable` | `libs/stringtable/src`: keys, packages, totals, sort, text round trip; comments and lines of the file (`from_reader`, `to_writer`; reading XML is a parameter), `01_sorted.rs`; `commands/localization/coverage.rs`, `sort.rs` |
| `Bin` | `libs/common/src/config/**` (all settings files but for their serializers; C93); `executor.rs`, `modules/hook/mod.rs` and `HEMTT.script`, `report.rs`, exit status, the order of modules of `check`/`dev`/`build`/`release`; lint settings; addon scan; PBO contents and paths; signing paths; SQF case fixer; launch command line, presets; what is binarized and `libs/p3d/src/functions/missing.rs`; `rapifier.rs`/`sqf.rs` selection and parallel scheme; the output folder and the releases: choice of addons, links, copied files, PBOs, keys, signatures, archive entries; `utils/{verify,inspect}.rs`; `commands/new/mod.rs`, `modules/new/license.rs`, `commands/value.rs`, the check of the version and the temporary folder in `context.rs`, `controller/profile.rs` |
| `Shoot` | `bin/src/commands/photoshoot/mod.rs`, `bin/src/controller/mod.rs`: the search for missing pictures, the session; `arma/src/lib.rs`, `arma/src/photoshoot.rs`; the scripts in `bin/dist/profile/autotest/photoshoot.VR` |
| `Hls` | `hls/src/diag_manager.rs`, `hls/src/config/mod.rs`: diagnostics of configs in the language server; `hls/src/workspace.rs`: folders and URLs; `hls/src/sqf/{locate,hover}.rs`: the command at the cursor |

## What is not modelled

* Operating-system effects: real file I/O errors, concurrency of `rayon` (modules' parallel loops are modelled as a
  sequential pass over an arbitrary order where the order could matter), time, the process environment, crash points.
* the rest of `hls` (language server: its protocol, the text of hovers, its cache of scripts), the engine and the image processing of a photoshoot (its session is C95), `bin/src/commands/{script,book,wiki}`, prompting the user,
  the Rhai language and the bodies of its file functions (what a hook script does is arbitrary in C90), ZIP archive bytes, git and Steam lookups, logging and rendering of diagnostics to the terminal.
* The messages of the SQF lints (but for the replacements of C75) and the similar names that some of them offer.
* Error values' texts and codes, except where a property speaks of them (C24, C37, C58).
* RSA key generation's randomness (any key that meets the arithmetic is covered); SHA-1 itself; DXT compression itself.
* P3D/PAA: which of several possible errors a malformed input gives.
* Performance and memory use.

## Findings

Theorems with suffix `_refuted` are behaviours of the code at the pinned commit that contradict what a user would expect;
each is proved of the model with a witness. MANIFEST.json's notes say what each shows.
