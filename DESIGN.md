# Formal model of smd (Flokkq/smd)

The renderer (`gfm`), the command line program (`smd`, `smd-core`), its logger, the npm wrapper and the release
scripts, in Rocq (Coq 8.16.1). Statements are in `Properties*.v`; these files contain only `Theorem`s (proved by
`exact` a lemma of another file), `Print Assumptions` for each, and `Example`s that show a concrete case
meeting the hypotheses. Vocabulary of the statements that is not code of the repository is in `Html.v`,
`Decode.v`, `Markdown.v`, `Spec*.v`.

## What is modelled

| model file | source | content |
|---|---|---|
| `Strings.v` | std `str`/`char` functions the code calls | strings are lists of Unicode scalar values |
| `Utf8.v` | std strings, `fs::read_to_string` | UTF-8 as in RFC 3629, both directions |
| `Token.v` | `gfm/src/token.rs` | tokens, `validate_link`, printing of urls |
| `Iter.v` | `gfm/src/iter.rs` | the iterator on characters; a cursor is the text that remains |
| `IterBytes.v` | `gfm/src/iter.rs` | the iterator as written, bytes and a byte index; refines `Iter.v` |
| `Lexer.v` | `gfm/src/lexer.rs` | every `lex_*` function, `parse_details`, `next_token` |
| `Parser.v` | `gfm/src/lib.rs` | `lex`, `parse`, `render`, `sanitize_display_text` |
| `Work.v` | `gfm/src/lexer.rs`, `gfm/src/lib.rs` | the functions that call `lex`, `parse` or `render`, with a count of the calls |
| `System.v` | (environment) | file system with links, processes, browser; one call per step, each may fail or be short |
| `Config.v` | `smd-core/src/config.rs` | configuration, environment variables, precedence |
| `Url.v` | (environment) | which file a browser opens for a file:// url |
| `Cli.v` | `smd-core/src/{error,fs,config,convert,browser}.rs`, `smd/src/{lib,main}.rs` | the command as a program over `System.v` |
| `Logger.v` | `smd/src/logger.rs` | log lines, one thread and several |
| `Npm.v` | `npm/smd/src/*.ts` | options to arguments, executable, exit status |
| `Args.v` | `smd/src/args.rs:106-117` | the input argument |
| `Clap.v` | `smd/src/args.rs`, `smd/src/main.rs` | the arguments, the reading of the command line, the whole program |
| `Filter.v` | `smd/src/logger.rs:87-89` | which records RUST_LOG lets through |
| `Release.v` | `release.sh`, `.github/workflows/release.yaml` | `sed`, versions of cargo, jobs and steps of the workflow |
| `Shell.v` | scripts in `.github/workflows/release.yaml` | how bash reads a script into commands and words |
| `Jobs.v` | `.github/workflows/release.yaml` | the eight jobs, what they need and when they start |
| `Cliff.v`, `CliffData.v` | `.cliff/default.toml`, `CHANGELOG.md` | the changelog made from messages of commits; the commits listed in the file |
| `Prepare.v` | `release.sh:7-38` | the script as a program that changes a git repository: files, commits, tags |
| `TagMessage.v` | `release.sh:26-37`, `.cliff/detailed.toml` | the message of the tag, as git-cliff and git make it |
| `Platform.v` | `npm/package.json.tmpl`, `release.yaml:53-150, 247-268` | the npm packages of the platforms: `envsubst`, the line that exports the version, targets |
| `Latest.v` | `release.yaml:37-45, 247-271, 322-336, 495-508` | which version is offered behind a sequence of releases |
| `Codec.v` | `smd-core/src/fs.rs:18-26, 85-119`, the tests of `fs.rs`, `browser.rs`, `error.rs`, `config.rs` and `args.rs:131-137` | storing objects; the tests as programs over `System.v` |
| `Ignore.v` | `.gitignore`, `npm/smd/.gitignore`, `pypi/.gitignore`, `release.sh:23` | the patterns, line by line, and an interpreter for them; `git add -A` |
| `NpmBuild.v` | `release.yaml:310-338`, `npm/smd/package.json` | tsup, the files of the package, the job `publish-npm` |
| `Python.v` | `release.yaml:274-303`, `pypi/pyproject.toml` | the version of the Python package after PEP 440 |
| `Suite.v` | `gfm/tests/gfm/*.rs` | the 677 examples as data (generated from the files) |
| `Ci.v` | `.github/workflows/main.yaml` | names of tests, `cargo test` with a filter, the two jobs |
| `Generate.v` | `smd/src/bin/{mangen,completion}.rs`, assets in `smd/Cargo.toml` | two programs over `System.v` |

| statements | proofs |
|---|---|
| `PropertiesRobust.v` (C01, C02, C29, C39) | `LexerFacts`, `LexMono`, `Master`, `NoPanic`, `Termination`, `Outcome`, `DetailsFacts`, `OutputFacts` |
| `PropertiesSafe.v` (C03-C06, C30, C63), vocabulary `Html.v`, `Decode.v` | `HtmlFacts`, `LinkFacts`, `SanitizeFacts`, `Safety`, `SafeClasses`, `RawHtml`, `DecodeFacts`, `Balance`, `Nesting` |
| `PropertiesText.v` (C08-C17, C31-C37), vocabulary `SpecText.v`, `Markdown.v` | `Exec`, `MarkdownFacts`, `MarkdownBlocks`, `MarkdownSound`, `TextFacts` |
| `PropertiesBlocks.v` (C18-C28, C61, C62), vocabulary `SpecBlocks.v` | `MarkdownLists`, `MarkdownTables`, `BlockFacts` |
| `PropertiesGfm.v` (C90-C97), vocabulary `SpecGfm.v` | `GfmFacts` |
| `PropertiesSyntax.v` (C103-C115), vocabulary `SpecSyntax.v` | `SyntaxFacts` |
| `PropertiesIter.v` (C07) | `IterBytesFacts` |
| `PropertiesCli.v` (C40-C51), vocabulary `SpecCli.v` | `SystemFacts`, `CliFacts`, `CliMain`, `CliRuns`, `ConfigFacts`, `Concurrent`, `CliProps` |
| `PropertiesUrl.v` (C116, C117), vocabulary `SpecCli.v`, `SpecPage.v` | `UrlFacts`, `BeginFacts`, `UrlProps` |
| `PropertiesTools.v` (C53-C59) | `LoggerFacts`, `NpmFacts`, `ArgsFacts` |
| `PropertiesArgs.v` (C51, C52, C60, C64-C67), vocabulary `SpecArgs.v`, `SpecLog.v` | `ClapFacts`, `FilterFacts`, `ArgsProps` |
| `PropertiesRelease.v` (C68-C74), vocabulary `SpecRelease.v` | `ReleaseFacts`, `ReleaseProps`, `NumberFacts` |
| `PropertiesJobs.v` (C83-C85) | `ShellFacts`, `JobsFacts` |
| `PropertiesCliff.v` (C88, C89), vocabulary `SpecCliff.v` | `CliffFacts` |
| `PropertiesPrepare.v` (C98-C102), vocabulary `SpecPrepare.v` | `PrepareFacts` |
| `PropertiesTag.v` (C118, C119), vocabulary `SpecTag.v` | `TagFacts` |
| `PropertiesPlatform.v` (C120, C121), vocabulary `SpecJson.v` | `PlatformFacts` |
| `PropertiesLatest.v` (C122) | `LatestFacts` |
| `PropertiesCodec.v` (C123, C124) | `CodecFacts` |
| `PropertiesIgnore.v` (C125, C126) | `SpecIgnore`, `IgnoreFacts` |
| `PropertiesNpmBuild.v` (C127) | `NpmBuildFacts` (the specification is at its beginning) |
| `PropertiesPython.v` (C128) | `SpecPython`, `PythonFacts` |
| `PropertiesTab.v` (C129) | `SpecText`, `TabFacts` |
| `PropertiesBom.v` (C130) | `SpecText`, `SpecCli`, `BomFacts` (which shows that the renderer only appends to its output) |
| `PropertiesChar.v` (C131, C132) | `SpecText`, `Master`, `CharFacts` |
| `PropertiesLink.v` (C28, C133-C138) | `Html`, `SafeClasses`, `BlockFacts`, `LinkNotes` |
| `PropertiesCi.v` (C75-C77), vocabulary `SpecCi.v` | `CiFacts`, `GenerateFacts` |
| `PropertiesMeta.v` (C78–C82) | `Alike`, `Lead`, `MetaFacts`, `Local`, `Sections`, `Final`, `Dos` |
| `PropertiesSize.v` (C38, C86, C87) | `SizeLex`, `SizeFacts`, `Work`, `WorkFacts`, `Depth` |

Every definition of a model file cites the lines it models and says where it simplifies.

### Representation choices

* A Rust `char` is its scalar value (`N`), a `&str`/`String` the list of its chars. Byte lengths
  (`str::len`) occur in `gfm` outside the iterator only on runs of ASCII characters selected by the caller
  (hashes, ticks, spaces, ...), on link schemes after the `is_ascii` test, and in
  `!summary_line.len() >= 20` (a bitwise complement, always true); so counting chars is the same. The
  iterator itself is modelled on bytes and proved to do what the character model does (C07). The logger's
  width counts bytes, as the code does.
* `res A = Ret a | Panic | Hang`. A failing `unwrap` or index is `Panic`.
* Recursion between `lex`, `parse` and `render` is by fuel, the nesting depth of calls; running out is
  `Hang`. The loop of `parse_details` (lexer.rs:892), the only one that need not stop, uses the same fuel.
  All other loops have a bound that is proved sufficient. `LexMono.v` proves that more fuel never changes a
  result that is not `Hang`; "renders" means "some fuel gives `Ret`", "runs forever" means "every fuel
  gives `Hang`".
* A command is a tree of system calls. A run takes one `choice` of the outside world per call; when
  the choices run out the process is dead, so statements about all runs are about crashes at every point too.
  Two processes run in any interleaving (`exec2`).
* Logging calls in `gfm` are dropped; those of `smd` and `smd-core` are calls of the program.

### Not modelled

Stack overflow (but see C87 for the depth of calls) and allocation failure. The texts that `clap` prints; words and variables that are not UTF-8; colours
of log lines; the pypi packaging but for the version; what git-cliff does with messages of several lines; what cargo-deb, generate-rpm, maturin, gpg and the GitHub actions do; replacements of
`sed` with other escapes than `\1`, `\&`, `\\`, `\/`. Of the tests of /repo `verify_cli` and the
example in a comment, which are only known by name.

## Trusted base

* The Coq 8.16.1 kernel and the standard library (`List`, `Arith`, `NArith`, `Bool`, `Lia`, `String`,
  `Ascii`, `DecimalString`, `DecimalNat`, `DecimalFacts`, `Permutation`, `Sorted`).
* Axioms: none of our own, and no theorem depends on any. `Print Assumptions` stands after every property theorem
  and prints `Closed under the global context` for each of them. Checking the compiled files with the libraries they
  load lists seven axioms of the standard library, which come with the files of ssreflect that
  `Coq.Setoids.Setoid` loads and are not used here: `Coq.ssr.ssrunder.Under_rel.Over_rel`, `Under_rel`, `Under_rel_from_rel`, `Under_relE`,
  `over_rel`, `over_rel_done`, `under_rel_done` (all in `Coq.ssr.ssrunder.Under_rel`).
* That the model says what the code does. The correspondence is by reading (line references at each definition) and,
  for `gfm`, by the cross-check below.
* Code that is not in the repository, after its documentation:
  * std functions, as written in `Strings.v`, `Utf8.v`, `Cli.v` (paths), `Args.v` (`canonicalize`).
  * the crate `config` 0.14 (`Config.v`): later sources override earlier ones, names of variables in any case,
    `__` separates, which strings are booleans, a field without value is an error.
  * `sed -E`, `grep`, `bash` and the runner of GitHub, and of cargo the crate `semver` 1.0 (`Release.v`): leftmost longest
    matches, `bash -e` in steps, steps behind a failing one are skipped, jobs wait for the ones they need.
  * `envsubst` of GNU gettext (`Platform.v`); npm's rule for optional dependencies and on which systems the programs of a target run (`SpecJson.v`);
    when GitHub and npm take a version for the latest (`Latest.v`).
  * cargo, libtest and tarpaulin (`Ci.v`): a filter selects by a part of the name of a test; `clap_mangen`, `clap_complete`
    and `cargo-deb` (`Generate.v`): the texts are arbitrary.
  * git and git-cliff on a repository (`Prepare.v`): what `git add -A`, `git commit` and `git tag` do (`TagMessage.v`: how git cleans up the
    message of a tag), and how git-cliff
    divides the commits into releases. Hashes, days and the success of commands are parameters of the theorems; the
    history has no merges. "The hash of a commit does not stand in its files"
    (`fresh`) is a hypothesis where it is needed.
  * git-cliff, git-conventional and Tera (`Cliff.v`): how a message is read, which group it gets, how the template
    is filled in; capital letters are an arbitrary function. `CHANGELOG.md` is what the model makes from the
    commits that it lists (an example in `PropertiesCliff.v`); kinds and messages were read off that file.
  * the crate `toml`: an arbitrary function from text to settings; C47 assumes that it reads the text which
    `initialize` writes as that text means, C124 the same of the texts in the tests. (A reader of a part of TOML in `Config.v` shows that this can be met.)
  * implementations of the traits `Serialize` and `Deserialize`: arbitrary functions (`Codec.v`); C123 assumes that they are inverse.
  * git's handling of .gitignore files (`Ignore.v`), after gitignore(5), dir.c and wildmatch.c; no other sources of patterns. It was compared with git 2.43 on the patterns of /repo (1800 paths) and on random patterns (10000 paths), which differ for sets with a slash only.
  * tsup 8 and the packing of yarn 4 (`NpmBuild.v`), after their sources: where a configuration is looked for, that a build without entries fails, the names of the results, and which files a package has; what a configuration file says is an arbitrary function.
  * maturin and PyPI (`Python.v`): that the version is the one of smd/Cargo.toml, read after the regular expression of PEP 440, and that PyPI takes no local versions. The reader was compared with the package `packaging` of Python on 1500 texts. The order of PEP 440 (`SpecPython.v`) is for versions of equally many numbers without local part.
  * the browser: an arbitrary function from page to PDF; every call may fail; a page is read when it
    is navigated to or while it is waited for. Which file a url names is after the URL Standard and the way
    Chromium turns a file url into a path (`Url.v`), for Unix.
  * the file system: absolute paths, symbolic links for last components, hard links, every call may fail,
    writes may be short, reading is one step.
  * `clap` 4.5 (`Clap.v`) and `env_logger` 0.10 (`Filter.v`), after their sources as far as remembered, for want of
    network; regular expressions are an arbitrary function; `shellexpand::tilde`; execa 8 and node
    (exit status of a rejected promise), atomics of the logger as sequentially consistent.

## Cross-check of the model (not a proof)

`difftest/port.py` is an independent line-by-line transcription of `gfm/src` that works on bytes and byte offsets
like the Rust code. `difftest/fuzz.py` compares it with the extracted Rocq model on random documents
(500 000 documents, no difference). The Rust code itself was never built or run.

`seeded/LOG.jsonl` records wrong programs the theorems were tried on: one definition of a copy of the model is
changed, everything is rebuilt, proofs that fail are left out, and the property theorems that depend on
one of them are listed (`Print Assumptions` names them).


## Properties

Generated from `tools/claims.txt` and `MANIFEST.json` by `tools/design.py`. `proved`: the whole statement of
`properties.jsonl`. `partial`: the `_refuted` theorems show where the statement is false of the code, the
`_partial` theorems say for which inputs it is true.

| id | title | status | what is proved | theorems |
|---|---|---|---|---|
| C01 | Rendering never panics | partial | Full statement refuted (C01_no_panic_refuted), also behind all prose; proved for all documents whose headings have no custom id or end in it. | `C01_C80_behind_prose`, `C01_no_panic_refuted`, `C01_misplaced_id_panics`, `C01_no_panic_partial`, `C01_no_id_partial`, `C01_C02_result_partial` |
| C02 | Rendering always terminates | partial | Full statement refuted; proved for all documents whose details blocks are closed and nested properly, and all with at most one; more generally by the number of tags behind each tag. For all documents the outcome is decided at depth 310 + 10 n (C02_outcome_decided). | `C02_C80_behind_prose`, `C02_terminates_refuted`, `C02_unclosed_details_hang`, `C02_terminates_partial`, `C02_nested_partial`, `C02_single_partial`, `C01_C02_result_partial`, `C02_outcome_unique`, `C02_outcomes_exclusive`, `C02_outcome_decided`, `C02_outcome_exists` |
| C03 | Output is free of injected markup | partial | Full statement refuted (raw text before a footnote reference, autolink text, double quote in a url); proved for all documents whose destinations and autolinks have no "<" and double quote and that do not have both "<" and "[^", see harmless in Html.v. | `C03_raw_text`, `C03_safe_refuted`, `C03_autolink_refuted`, `C03_quote_refuted`, `C03_safe_partial`, `C03_classes` |
| C04 | No javascript: links | partial | True of every accepted link destination; refuted for image sources (two schemes, or a control character in front); whole documents proved for the class of C03, including images with relative or "://" sources. | `C04_link_destinations`, `C04_images_refuted`, `C04_control_refuted`, `C04_no_javascript_partial`, `C04_no_javascript_src_partial` |
| C05 | data: links only for images | partial | Refuted by destinations with one @; proved for destinations without @, and documents of the class of C03 without @ in destinations and autolinks. | `C05_link_destinations_partial`, `C05_data_refuted`, `C05_data_partial` |
| C06 | Escaping is lossless and complete | partial | Completeness proved; losslessness refuted for &#124; and ~ (their references name other characters) and proved for all other texts; exact decoding for all texts. | `C06_complete`, `C06_lossless_refuted`, `C06_decoded`, `C06_lossless_partial` |
| C07 | No character is ever split | partial | For all texts and all sequences of operations the byte iterator answers what the character model answers and stays on character boundaries; peek_until_end on an empty text subtracts below zero (refuted). | `C07_iterator_partial`, `C07_boundary_partial`, `C07_peek_until_end_refuted` |
| C08 | Plain text becomes one paragraph | partial | Proved for every ordinary text (no character with a Markdown meaning); refuted for words with a hyphen, which become lists. | `C08_paragraph_partial`, `C08_blank_document_partial`, `C08_hyphen_refuted` |
| C09 | Words stay separated | partial | Refuted for every ordinary text (a space makes no difference to the output); kept inside emphasis. | `C09_words_refuted`, `C09_emphasis_partial` |
| C10 | Blank lines separate paragraphs | partial | Proved for ordinary paragraphs separated by any number of empty lines; refuted for blank lines with a space or with Windows line ends. | `C10_paragraphs_partial`, `C10_inline_partial`, `C10_blank_line_refuted` |
| C11 | ATX headings | partial | Proved for all levels, ordinary texts, closing runs and contexts up to the spaces between words, which are lost (refuted for all). | `C11_heading_partial`, `C11_heading_text`, `C11_spaces_refuted` |
| C12 | More than six hashes is not a heading | proved | For every run of seven or more hashes among ordinary text. | `C12_seven_hashes` |
| C13 | Heading text survives | partial | Refuted for every heading with a code span or a custom id; proved for headings with any other inline construct among ordinary text. | `C13_code_refuted`, `C13_custom_id_refuted`, `C13_heading_inline_partial` |
| C14 | Emphasis | proved | For all texts without asterisks and underscores (of any other content) among ordinary text; decoding exact for texts without bar, tilde and backslash (see C06). | `C14_emphasis`, `C14_mixed_marks` |
| C15 | Strikethrough | partial | Strikethrough proved; unmatched tildes strike nothing (proved), but a different character is shown for them (refuted). | `C15_strike`, `C15_tildes_partial`, `C15_unmatched_partial`, `C15_unclosed_partial`, `C15_tilde_refuted` |
| C16 | Inline code is verbatim | partial | Proved for all code spans among ordinary text; backslashes in the code are lost (refuted). | `C16_code_partial`, `C16_code_block_partial`, `C16_backslash_refuted` |
| C17 | Fenced code blocks are rendered | partial | Refuted for every fenced code block: nothing is shown. Indented code is shown. | `C17_fence_refuted`, `C17_indented_partial` |
| C18 | Ordered lists | proved | For all non-empty lists of items with arbitrary one-line texts; text after the list changes nothing about the items (but see C30 for the end tag). | `C18_ordered_list`, `C18_ordered_list_then_text` |
| C19 | Ordered lists may have more than nine items | partial | Refuted for every number of two or more digits. | `C19_long_number_refuted` |
| C20 | Bullet lists | proved | For all non-empty lists of items of ordinary text with any inline constructs. | `C20_bullet_list`, `C20_bullet_list_then_text` |
| C21 | Nested list items are rendered | partial | Refuted for every nested item: it leaves no trace. | `C21_nested_refuted` |
| C22 | Task lists | proved | For all non-empty lists of task items with arbitrary one-line texts. | `C22_task_list`, `C22_task_list_then_text` |
| C23 | Tables | proved | For all table sizes, alignments and ordinary cells; also for cells with emphasis and escapes. | `C23_table`, `C23_table_inline` |
| C24 | Malformed tables are shown as text | proved | For all blocks of lines with bars that are no table (without footnote references). | `C24_malformed_table` |
| C25 | Block quote nesting | partial | Proved for up to 255 levels and any sequence of quoted ordinary lines; refuted for 256 and more (number modulo 256). | `C25_nesting_partial`, `C25_deep_refuted` |
| C26 | Quoted text is escaped once | partial | Refuted for every ordinary line with a character that is escaped (escaped twice); true exactly for the others. | `C26_escaped_twice_refuted` |
| C27 | Collapsible sections | partial | Proved for every body described by the grammar, in particular paragraphs; refuted as to the end of the element (stray text). | `C27_details_partial`, `C27_details_paragraphs_partial`, `C27_stray_text_refuted` |
| C28 | Footnotes | partial | Listing and order proved for all sequences of paragraphs and definitions; ids refuted (all the same), and the link of a reference refuted: it leads to an id which nothing has, unless the note is called 1. | `C28_footnotes_partial`, `C28_ids_refuted`, `C28_ids_partial`, `C28_link_refuted` |
| C29 | Output is never empty and properly ended | proved | For all documents that render. | `C29_output_ended` |
| C30 | Tags are balanced | partial | For documents without leaks (no "<" in destinations, titles and autolinks, and not both "<" and "[^") proved for all elements but ul; refuted for ul by a task list behind a bullet list in a numbered list; proved for ul in documents without task boxes. | `C30_balanced_refuted`, `C30_balanced_partial`, `C30_ul_partial`, `C30_ul_at_most_partial` |
| C31 | Backslash escapes | partial | Proved for all punctuation but the backslash itself, of which nothing is shown (refuted). | `C31_escape_partial`, `C31_all_escaped_partial`, `C31_backslash_refuted` |
| C32 | A trailing backslash invents no text | partial | Refuted for every ordinary document that ends in a backslash. | `C32_trailing_backslash_refuted`, `C32_backslash_newline_partial` |
| C33 | Unmatched '<' is shown | partial | Refuted for every '<' without '>' behind it; proved for '<...>' that is not an autolink. | `C33_lt_refuted`, `C33_angle_partial` |
| C34 | Images | partial | Proved for urls without scheme; refuted for all urls with one. | `C34_image_partial`, `C34_scheme_refuted` |
| C35 | Inline links and autolinks | partial | Proved for absolute urls (links and autolinks) and mail autolinks; refuted for relative urls and links with a title. | `C35_link_partial`, `C35_autolink_partial`, `C35_mail_autolink_partial`, `C35_relative_refuted`, `C35_title_refuted` |
| C36 | Thematic breaks | partial | Proved for dashes, four or more asterisks or underscores, and asterisks before a blank line; refuted for three underscores and for three asterisks at the end. | `C36_rule_partial`, `C36_stars_partial`, `C36_three_refuted` |
| C37 | Hard line breaks | partial | Refuted for every text and number of spaces. | `C37_hard_break_refuted` |
| C38 | Output size is bounded | proved | For every document that is rendered at all: at most 2^35 (1+n)^4 characters, n the number of characters of the source. | `C38_output_bounded`, `C38_bytes_bounded`, `C38_not_linear`, `C38_at_least_quadratic` |
| C39 | The lexer always makes progress | proved | For all sources, ignore lists and fuels. | `C39_pieces`, `C39_token_count` |
| C40 | smd parse -o html writes the rendering | partial | Proved for runs without short writes; refuted for all conversions by a short write. | `C64_C40_html_partial`, `C40_C41_written_partial`, `C40_C41_short_refuted` |
| C41 | Success means the whole output was written | partial | Refuted: file.write may take less and nobody looks; proved for runs without short writes, HTML and (in directories whose names mean themselves in a url) PDF. | `C40_C41_written_partial`, `C40_C41_short_refuted`, `C41_C116_pdf_partial` |
| C42 | A crash never destroys the previous output | partial | Refuted: the output is truncated before it is written; proved that it is always the old content or a beginning of the new one. | `C42_crash_refuted`, `C42_html_partial`, `C42_pdf_partial` |
| C43 | The input file is never modified | partial | Refuted for inputs named .html (HTML) and tmp.html (PDF); proved for inputs that are not the output or the temporary file under any name. | `C43_html_refuted`, `C43_tmp_refuted`, `C43_html_partial`, `C43_pdf_partial` |
| C44 | Different inputs have different outputs | partial | Refuted for names that differ in the extension; proved: outputs agree exactly if directory and stem do. | `C44_collision_refuted`, `C44_exactly_partial`, `C44_same_extension_partial` |
| C45 | PDF conversion leaves other files alone | partial | Refuted by an existing tmp.html and by a browser failure; proved for success without a tmp.html, and that no third file ever changes. | `C45_clobbered_refuted`, `C45_leak_refuted`, `C45_success_partial`, `C45_gone_partial`, `C45_others_partial` |
| C46 | Concurrent PDF conversions do not mix | partial | Refuted by a schedule of two processes in one directory; proved for every interleaving of processes that share no written file. | `C46_race_refuted`, `C46_apart_partial` |
| C47 | initialize never overwrites a configuration | partial | Refuted by races and by a failing stat; proved for one process and a stat that works. Assumes the TOML reader reads the default text as meant. | `C47_present_partial`, `C47_frame_partial`, `C47_written_partial`, `C47_race_refuted`, `C47_lost_refuted`, `C47_stat_refuted` |
| C48 | An unreadable configuration stops the conversion | partial | Refuted if stat fails; proved otherwise. | `C48_bad_partial`, `C48_absent_partial`, `C48_stat_refuted` |
| C49 | Configuration precedence | partial | Order refuted for names that differ in case; proved if no two variables of one setting disagree. | `C49_env_action_partial`, `C49_file_action_partial`, `C49_env_keep_partial`, `C49_file_keep_partial`, `C49_missing_partial`, `C49_missing_named_partial`, `C49_wrong_partial`, `C49_order_partial`, `C49_order_refuted` |
| C50 | Configuration options take effect | partial | Refuted: no configuration value changes any run. | `C50_ignored_refuted` |
| C51 | Exit status | partial | Refuted by panics (101), endless loops and by every RUST_LOG with a word that is no level and no beginning of smd; for all other runs proved, with the exact values of RUST_LOG under which the error is seen. | `C51_shown_partial`, `C51_silent_refuted`, `C51_silent_run_refuted`, `C51_exit_partial`, `C51_panic_refuted`, `C51_endless_refuted` |
| C52 | Verbosity flag | proved | For every accepted command line, every RUST_LOG and every record. | `C52_verbosity` |
| C53 | Log columns stay aligned | partial | Proved for one thread; refuted for two by a schedule, for all targets of different length. | `C53_one_thread_partial`, `C53_exact_partial`, `C53_threads_refuted`, `C53_threads_partial`, `C53_levels_partial` |
| C54 | npm wrapper passes options faithfully | partial | Arguments proved to be the documented ones for keys in ASCII; refuted for undefined, and settings cannot be recovered if a value begins with two hyphens. | `C54_documented_partial`, `C54_settings_partial`, `C54_settings_refuted`, `C54_undefined_refuted`, `C54_strings_partial` |
| C55 | npm option names are unambiguous | partial | Refuted by hyphens in keys; proved for ASCII keys without hyphens, hence for all keys of options.ts. | `C55_collision_refuted`, `C55_apart_partial`, `C55_known_partial` |
| C56 | The npm package runs smd | partial | Refuted on every platform: it is git-cliff. | `C56_program_refuted` |
| C57 | The npm command passes on the exit status | partial | Proved for status 0; refuted for every other status but 1. execa and node are modelled after their documentation. | `C57_zero_partial`, `C57_status_refuted` |
| C58 | The input argument is canonical | proved | For every tidy file system. | `C58_canonical`, `C58_complete`, `C58_tilde`, `C58_no_tilde` |
| C59 | The output is beside the file the user named | partial | Proved for files that are no symbolic link; refuted for all links into another directory. | `C59_beside_partial`, `C59_link_refuted` |
| C60 | --version prints the version | partial | Refuted: no command line shows the version. | `C60_version_refuted` |
| C61 | A table cell shows its content once | partial | Refuted for all cells of autolinks: the content is shown once per link. Proved for cells of text, emphasis and escapes; exact output for cells with links and code spans (C23_table_inline). | `C61_links_repeated`, `C61_once_refuted`, `C61_text_cells_partial` |
| C62 | Footnote references are numbered | partial | Refuted for every paragraph of ordinary text with references: all show 1. Proved for consecutive references in a line that starts with a bar. | `C62_always_one_refuted`, `C62_numbered_partial` |
| C63 | Elements are properly nested | partial | Refuted by inline code in a paragraph, by a hyphen in a word and by a heading of two images. Proved for documents with nothing that may become code or a list item, if there are no block quotes and no images, or no headings and no backslashes. | `C63_code_refuted`, `C63_list_refuted`, `C63_heading_refuted`, `C63_nested_partial` |
| C64 | The command line is understood as documented | proved | Equivalence with a grammar, for all command lines; clap is modelled after its source. | `C64_accepted`, `C64_help`, `C64_no_effect`, `C64_status`, `C64_C40_html_partial` |
| C65 | RUST_LOG selects log records | proved | For all lists of entries of module names and levels; env_logger is modelled after its source, regular expressions are an arbitrary function. | `C65_entries`, `C65_expression`, `C65_empty` |
| C66 | The options of the npm package reach the program | partial | Refuted for every object of the type: no command is ever started. | `C66_options_refuted` |
| C67 | The usage line is right | partial | Refuted for all options and flags, in both orders, and for all flags behind a command. | `C67_usage_refuted`, `C67_late_flag_refuted` |
| C68 | A release changes versions and nothing else | partial | Exact effect proved for all files and all tags of versions; refuted for package.json files of one line and for tags with an ampersand. sed is modelled. | `C68_exact`, `C68_one_line_refuted`, `C68_ampersand_refuted` |
| C69 | After a release the crates fit together | partial | Refuted for all newer versions: the lines of smd-core and gfm lack the mark. Proved for files in which all versions are marked. | `C69_refuted`, `C69_unmanaged_refuted`, `C69_managed_partial`, `C69_precedence`, `C69_requirement` |
| C70 | The last release counts | partial | Proved for all versions and all files; refuted for the tag v. | `C70_again`, `C70_empty_refuted` |
| C71 | A failing step stops the release | partial | Refuted for all failures: nothing is looked at. | `C71_refuted` |
| C72 | Script and workflow agree on the version | proved | For all tags that start the workflow; the tags of all SemVer versions do. | `C72_same_version`, `C72_versions`, `C72_every_version` |
| C73 | A tag publishes the packages of all platforms | partial | Refuted for all outcomes: a file is copied that does not exist. Proved if it did; names of packages agree; the Debian package has another name for pre-releases. | `C73_refuted`, `C73_repo_refuted`, `C73_partial`, `C73_packages`, `C73_debian` |
| C74 | The binary is published on crates.io behind the libraries | partial | Refuted: it waits for ever, for every content of the index. | `C74_refuted` |
| C75 | The workflow fails if a test fails | partial | Refuted for all outcomes, and what the jobs do depend on is exact: the filter smd selects no test and the coverage job ends in &#124;&#124; true. Proved without the filter. | `C75_refuted`, `C75_exact`, `C75_no_guard_refuted`, `C75_filter`, `C75_unfiltered_partial`, `C75_results`, `C75_unfiltered_renderer_partial` |
| C76 | The tests of the repository pass | partial | Refuted; 71 of the 677 tests of the renderer pass, exactly which is proved, and all end; the tests of the iterator pass. | `C76_refuted`, `C76_exact_partial`, `C76_all_end`, `C76_iterator_partial` |
| C77 | Manual and completions are complete and where the package looks for them | proved | Texts of clap_mangen and clap_complete are arbitrary; names of scripts and cargo-deb after their documentation. | `C77_manual`, `C77_completions`, `C77_no_directory`, `C77_package` |
| C78 | Letters beyond ASCII are all alike | proved | For all documents and all exchanges that leave ASCII, white space and the arrow of footnotes alone; each condition is necessary. | `C78_letters_alike` |
| C79 | Empty lines in front of a document make no difference | partial | Refuted for an indented first line with a hash; proved for all documents whose first line is not indented, and that more than one empty line is like one. | `C79_lead_partial`, `C79_number_partial`, `C79_refuted` |
| C80 | What stands behind an empty line is rendered as if it stood alone | partial | Refuted behind lists, tasks, quotes, code and footnotes and in front of indented lines; proved for all other first parts and all other continuations, and in terms of the text for prose with headings. | `C80_sections_partial`, `C80_prose_partial`, `C01_C80_behind_prose`, `C02_C80_behind_prose`, `C80_many_partial`, `C80_many_text_partial`, `C80_refuted` |
| C81 | Empty lines behind a document make no difference | partial | Refuted for a bare hash, open emphasis, rules of asterisks and four spaces at the end; proved for all documents whose last paragraph is prose or a heading, whatever stands before it. | `C81_final_lines_partial`, `C81_refuted` |
| C82 | Windows line ends make no difference | partial | Refuted: every heading with an id panics, and empty lines separate nothing; proved for all lines of ordinary text and headings without empty lines between them. | `C82_windows_partial`, `C82_heading_id_refuted` |
| C83 | Texts put into the scripts of the release stay texts | partial | Refuted for changelogs with code spans or quotes, tags with separators and passphrases with dollar signs; proved for all versions, for all changelogs with backslashes in front of these chars, and for all texts without quotes, dollar signs, backquotes and backslashes. The shell is modelled after POSIX, as far as these scripts need it. | `C83_versions`, `C83_changelog_partial`, `C83_guarded_partial`, `C83_passphrase_partial`, `C83_code_span_refuted`, `C83_substitution_refuted`, `C83_quotes_refuted`, `C83_tag_quotes_refuted`, `C83_command_refuted`, `C83_tag_refuted`, `C83_passphrase_refuted` |
| C84 | A release is published everywhere or nowhere | partial | Refuted: crates.io and Homebrew wait for nothing, the packages only for the changelog; proved for the packages of npm and PyPI. | `C84_base_packages_partial`, `C84_packages_refuted`, `C84_crates_refuted`, `C84_refuted` |
| C85 | Every Python wheel is built by the step of its platform | partial | Refuted: the step for musl is never run; proved that every wheel is built by exactly one step. | `C85_one_step_partial`, `C85_musl_refuted` |
| C86 | The work of rendering is at most quadratic | proved | For all documents and fuels: at most 2 + 2n + 6424 n^2, and 2 + 2n + 100 n^2 without > and &#124;, n the number of characters; not counted are the loops of a function over its own text. | `C86_counts_the_renderer`, `C86_work_bounded`, `C86_work_at_least`, `C86_work_quadratic` |
| C87 | No document makes the renderer recurse without bound | partial | Refuted: list items in each other need a level for every two characters; proved that 310 + 10 n levels are enough, and one for documents without # > - + * _ < &#124;. | `C87_depth_refuted`, `C87_depth_needed`, `C87_depth_linear_partial`, `C87_depth_flat_partial` |
| C88 | Every commit is listed once in the changelog, under the heading of its kind | partial | Refuted: messages without a colon are left out, kinds that begin with a word of the list are listed under it, kinds that differ in the case of the first letter get two sections with one heading; proved for all other messages of one line that they are listed once, in order, in the section of their kind. | `C88_listed_partial`, `C88_once_partial`, `C88_left_out_refuted`, `C88_beginning_refuted`, `C88_two_sections_refuted` |
| C89 | The links of the changelog lead to the repository | partial | Refuted for every link to a commit and between releases: the name of the repository is set to an address; proved that the line of a commit has one link, which ends with its hash. | `C89_commit_refuted`, `C89_compare_refuted`, `C89_one_link_partial` |
| C90 | A marker inside a line is text | partial | Refuted for every marker with a blank behind any text: it begins its block in the middle of the line; proved for arrows that no space follows and for two hyphens. | `C90_hash_refuted`, `C90_quote_refuted`, `C90_bullet_refuted`, `C90_number_refuted`, `C90_arrows_partial`, `C90_two_hyphens_partial` |
| C91 | Underlined lines are headings | partial | Refuted for every line and every underline of at least one sign of equality or three hyphens. | `C91_equals_refuted`, `C91_hyphens_refuted` |
| C92 | Character references stand for their characters | partial | Refuted for every reference in ordinary text: the reader sees it as it is written. | `C92_reference_refuted` |
| C93 | Links by reference | partial | Refuted for every label and destination, and for text and label side by side: all of it is shown as text. | `C93_reference_refuted`, `C93_text_refuted` |
| C94 | Emphasis inside other constructs | partial | Refuted for all texts in strikethrough, links and strong emphasis: the marks are shown, or begin a list. | `C94_strike_refuted`, `C94_link_refuted`, `C94_strong_refuted` |
| C95 | The rows of a table may have fewer or more cells than its head | partial | Refuted for every table in which two lines have different numbers of cells: all of it is shown as text. | `C95_rows_refuted` |
| C96 | Underscores inside words are text | partial | Refuted for all words: pairs of underscores emphasise, and a single one emphasises the rest of the document. | `C96_pair_refuted`, `C96_single_refuted` |
| C97 | Addresses in the text are links | partial | Refuted for every address of ordinary characters: there is no link. | `C97_address_refuted` |
| C98 | The tag of a release points to its version | partial | Proved if every command succeeds and the tag is new; refuted for every repository if only git commit fails (the tag is on the commit before) or only git-cliff fails (the changelog is empty). | `C98_prepared_partial`, `C98_commit_refuted`, `C98_cliff_refuted` |
| C99 | A release changes nothing else | partial | Proved for a clean working tree; refuted for every other file that is new or changed in the working tree: it is committed. | `C99_clean_partial`, `C99_dirty_refuted` |
| C100 | The changelog in the repository is up to date | partial | Refuted for every release: its own commit is missing; proved that the commits before it are divided into releases at the tags, and that the line of each is there if its message is as conventionalcommits.org has it. | `C100_changelog_refuted`, `C100_every_partial`, `C100_divided_partial`, `C100_listed_partial` |
| C101 | A release can be made again | partial | Refuted for every release: the second run makes another commit, and the tag stays on the first; proved that no run moves a tag and that without a tag nothing happens. | `C101_twice_refuted`, `C101_tags_partial`, `C101_no_tag_partial` |
| C102 | The lock file of a release fits | partial | Refuted for every release of a version that Cargo.lock does not yet name: the script does not touch the file. | `C102_lock_refuted` |
| C103 | A mark that is not closed is text, and nothing else | partial | Refuted for every mark: all of the rest of the document is shown as it is written, or emphasised, whatever it contains. | `C103_bracket_refuted`, `C103_strong_refuted`, `C103_strike_refuted`, `C103_emphasis_refuted`, `C103_ticks_refuted`, `C103_fence_refuted` |
| C104 | A construct inside a line ends with its paragraph | partial | Refuted for all texts: emphasis, strong emphasis, strikethrough and links reach over empty lines. | `C104_emphasis_refuted`, `C104_strong_refuted`, `C104_strike_refuted`, `C104_link_refuted` |
| C105 | An indented line continues its paragraph | partial | Refuted for all paragraphs and lines: a code block begins inside the paragraph and holds all of the rest of the document. | `C105_indented_refuted` |
| C106 | A numbered list begins with its number | partial | Refuted for all lists: the numbers do not matter, and numbers with a parenthesis make no list. | `C106_start_refuted`, `C106_parenthesis_refuted` |
| C107 | Constructs inside lines are rendered in all items and headings | partial | Refuted for all texts: the marks are shown. | `C107_numbered_refuted`, `C107_task_refuted`, `C107_heading_refuted` |
| C108 | Variants of tables | partial | Refuted for all tables of these kinds: they are shown as text, not at all, or with the cells in the wrong columns. | `C108_bare_refuted`, `C108_escaped_bar_refuted`, `C108_empty_cell_refuted`, `C108_later_rows_refuted` |
| C109 | Tildes | partial | Refuted for all ordinary texts between runs of tildes other than two: they are shown as text. | `C109_tildes_refuted` |
| C110 | Destinations with parentheses and in angle brackets | partial | Refuted: the destination ends with the first closing parenthesis, and angle brackets become part of the address. | `C110_parentheses_refuted`, `C110_angle_refuted` |
| C111 | The items of task lists may begin with any bullet | partial | Refuted for asterisks, proved for hyphens and plus signs. | `C111_star_refuted`, `C111_hyphen_partial` |
| C112 | Only hyphens, asterisks and underscores make a rule | partial | Refuted for plus signs, also among hyphens; proved for signs of equality. | `C112_plus_refuted`, `C112_equals_partial` |
| C113 | The messages of the program are not shown | partial | Refuted for every footnote behind an exclamation mark (and, in C32, for a backslash at the end). | `C113_message_refuted` |
| C114 | A line of text behind an item or a quotation continues it | partial | Refuted for all of them: the line stands outside, in lists the list ends behind its first character. | `C114_quote_refuted`, `C114_bullet_refuted`, `C114_numbered_refuted` |
| C115 | A backslash at the end of a line is a line break | partial | Refuted for all texts: nothing is shown. | `C115_backslash_refuted` |
| C116 | The browser opens the page that was written | partial | Refuted: the path becomes a url without being encoded, so in a directory like C# or a%20b another file is opened (or none); proved which directories are safe, and that the PDF is right in these. | `C41_C116_pdf_partial`, `C116_exact_partial`, `C116_unsafe_refuted`, `C116_cut_refuted`, `C116_coded_refuted`, `C116_dots_refuted` |
| C117 | The HTML output is a whole document | partial | Refuted for all inputs: no output begins with a document type, html, head or meta; proved with which elements every output begins. | `C117_begins`, `C117_document_refuted` |
| C118 | The message of the tag lists the commits of the release | partial | Proved for all messages as conventionalcommits.org has them, and that others are listed if they begin with a word of the list; refuted: all others leave no trace, and git takes a heading that begins with a number sign for a comment. | `C118_listed_partial`, `C118_words_partial`, `C118_left_out_refuted`, `C118_heading_refuted` |
| C119 | The message of the tag and the changelog agree | partial | Refuted for every release: its own commit is in the message and not in the changelog. | `C119_own_refuted` |
| C120 | The npm package of a platform says what it is for | partial | Proved for all versions of semver.org and all builds, and for all tags without double quotes, backslashes, dollar signs, backquotes and control chars; refuted: quotes in a tag are lost, so that the package has another version. | `C120_versions`, `C120_all`, `C120_tags_partial`, `C120_quotes_refuted` |
| C121 | npm installs a program that runs | partial | Proved that exactly the package of the system is installed and that its program runs there, but for musl; refuted: on Linux with musl the package is installed and its program needs glibc. | `C121_only`, `C121_program`, `C121_runs_partial`, `C121_musl_refuted` |
| C122 | Pre-releases are not offered as the latest version | partial | Proved for the npm package smd and Homebrew, with exactly which versions are taken for pre-releases; refuted: GitHub and the npm packages of the platforms offer every pre-release, and releases whose build is named with a hyphen are held back. | `C122_taken`, `C122_latest_partial`, `C122_build_refuted`, `C122_pre_refuted` |
| C123 | An object that is stored is decoded again | partial | Refuted with a short write; without one nothing else is decoded, for every type whose traits are inverse; what cannot be serialized is refused and touches no file; the objects of the tests exactly without a colon. | `C123_decoded_partial`, `C123_refused`, `C123_short_refuted`, `C123_struct_partial`, `C123_within`, `C123_colon_refuted` |
| C124 | The tests of smd-core and smd pass and clean up | partial | Refuted: files of the same names are lost, a page is left, an environment variable and a linked home directory fail tests; otherwise the tests of files and configuration pass and clean up. | `C124_files_partial`, `C124_lost_refuted`, `C124_page_refuted`, `C124_absent`, `C124_config_partial`, `C124_environment_refuted`, `C124_home_partial` |
| C125 | Nothing that smd writes or that is built gets into a release | proved | For all working trees and histories; the three .gitignore files are interpreted, and what they exclude is proved equivalent to a description without patterns. | `C125_ignored`, `C125_outputs`, `C125_built` |
| C126 | The commit of a release has exactly the files of the project | partial | Exactly which files are in the commit is proved; refuted: files that tests left are in it, and new files in a directory with the name build are not. | `C126_files_partial`, `C126_leftovers_refuted`, `C126_sources_refuted` |
| C127 | The npm package smd is published with the files it names, and starts smd | partial | Refuted: tsup has neither arguments nor a configuration, so the build fails and nothing is published; and the program asks for the packages of git-cliff. Proved when a package would be published, and exactly with which configurations it would be complete. | `C127_published_refuted`, `C127_repository_refuted`, `C127_configuration`, `C127_outside`, `C127_when_partial`, `C127_contents_partial`, `C127_complete_partial`, `C127_started_refuted` |
| C128 | The versions of the releases are versions of the Python package, in the same order | partial | Proved for releases and for alpha, beta and rc with a number: read, and in the same order; which build metadata is read. Refuted otherwise: a number alone, post, rev and r are post-releases, dev is before alpha, pre and rc are one word, other words are refused (and stop the release), metadata is refused by PyPI. | `C128_known_partial`, `C128_order_partial`, `C128_words_partial`, `C128_tag_partial`, `C128_number_refuted`, `C128_post_refuted`, `C128_dev_refuted`, `C128_candidates_refuted`, `C128_unknown_refuted`, `C128_local_partial`, `C128_metadata_refuted`, `C128_stops_refuted` |
| C129 | Tabs and spaces between two words only separate them | partial | Proved for one to three spaces behind a word that ends in a letter of ASCII; refuted for four spaces, a tab, and two spaces and a tab: the rest of the line is code. Also refuted for five or more spaces: the rest of the line is shown with its markup as written. Other runs of tabs and spaces are not covered. | `C129_spaces_partial`, `C129_code_refuted`, `C129_many_refuted` |
| C130 | A byte order mark in front of a document makes no difference | partial | Refuted for every document: the page begins with a paragraph that begins with the mark, which no document without a mark has; in front of a heading it is a paragraph of its own. So it is for every successful run on a file that begins with the three bytes. Of paragraphs it is true but for the mark itself. | `C130_shown_refuted`, `C130_differs_refuted`, `C130_heading_refuted`, `C130_paragraph_partial`, `C130_bytes_refuted`, `C130_written_refuted` |
| C131 | Every character of the page is from the document or belongs to the tags | proved | Through all levels of nested rendering. | `C131_characters` |
| C132 | NUL is not on the page | partial | Proved for documents without the character; refuted for all ordinary paragraphs and headings with it: it is not replaced. | `C132_none_partial`, `C132_paragraph_refuted`, `C132_heading_refuted` |
| C133 | The link behind a footnote | partial | Proved for a note behind the paragraph with its only reference; refuted for every text with several references to one note: all have the same id. | `C133_back_partial`, `C133_same_refuted` |
| C134 | References to footnotes that do not exist | partial | Refuted for every paragraph with one reference and no note: there is a link, and nothing it leads to. | `C134_undefined_refuted` |
| C135 | Markdown in footnotes | partial | Refuted for every sequence of paragraphs and notes: the text is shown as it is written. | `C135_markup_refuted` |
| C136 | A footnote begins with its line | partial | Refuted for every ordinary text in front of it: the rest of the line is taken out of the paragraph. | `C136_line_refuted` |
| C137 | What is not recognised as a footnote is text | partial | Refuted for all such notes: two characters are lost and the rest is not escaped, so every script can be put on a page. | `C137_raw_refuted`, `C137_script_refuted` |
| C138 | Which footnotes are listed | partial | Refuted for all documents of notes only: all of them are listed, also those of the same name. | `C138_listed_refuted` |
