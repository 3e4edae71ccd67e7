# Formal model of smd (Flokkq/smd)

The renderer (`gfm`), the command line program (`smd`, `smd-core`), its logger, the npm wrapper and the release
scripts, in Rocq (Coq 8.16.1). Statements are in `Properties*.v`; these files contain only `Theorem`s (proved by
`exact` a lemma of another file), `Print Assumptions` for each, and `Example`s that show a concrete case
meeting the hypotheses. Vocabulary of the statements that is not code of the repository is in `Html.v`,
`Decode.v`, `Markdown.v`, `Spec*.v`.

## What is modelled

| model file | source | content |
|---|---|---|
| `Strings.v` | std `str`/`char` functions the code calls | strings are lists of Unicode scalar values |
| `Utf8.v` | std strings, `fs::read_to_string` | UTF-8 as in RFC 3629, both directions |
| `Token.v` | `gfm/src/token.rs` | tokens, `validate_link`, printing of urls |
| `Iter.v` | `gfm/src/iter.rs` | the iterator on characters; a cursor is the text that remains |
| `IterBytes.v` | `gfm/src/iter.rs` | the iterator as written, bytes and a byte index; refines `Iter.v` |
| `Lexer.v` | `gfm/src/lexer.rs` | every `lex_*` function, `parse_details`, `next_token` |
| `Parser.v` | `gfm/src/lib.rs` | `lex`, `parse`, `render`, `sanitize_display_text` |
| `Work.v` | `gfm/src/lexer.rs`, `gfm/src/lib.rs` | the functions that call `lex`, `parse` or `render`, with a count of the calls |
| `System.v` | (environment) | file system with links, processes, browser; one call per step, each may fail or be short |
| `Config.v` | `smd-core/src/config.rs` | configuration, environment variables, precedence |
| `Url.v` | (environment) | which file a browser opens for a file:// url |
| `Cli.v` | `smd-core/src/{error,fs,config,convert,browser}.rs`, `smd/src/{lib,main}.rs` | the command as a program over `System.v` |
| `Logger.v` | `smd/src/logger.rs` | log lines, one thread and several |
| `Npm.v` | `npm/smd/src/*.ts` | options to arguments, executable, exit status |
| `Args.v` | `smd/src/args.rs:106-117` | the input argument |
| `Clap.v` | `smd/src/args.rs`, `smd/src/main.rs` | the arguments, the reading of the command line, the whole program |
| `Filter.v` | `smd/src/logger.rs:87-89` | which records RUST_LOG lets through |
| `Release.v` | `release.sh`, `.github/workflows/release.yaml` | `sed`, versions of cargo, jobs and steps of the workflow |
| `Shell.v` | scripts in `.github/workflows/release.yaml` | how bash reads a script into commands and words |
| `Jobs.v` | `.github/workflows/release.yaml` | the eight jobs, what they need and when they start |
| `Cliff.v`, `CliffData.v` | `.cliff/default.toml`, `CHANGELOG.md` | the changelog made from messages of commits; the commits listed in the file |
| `Prepare.v` | `release.sh:7-38` | the script as a program that changes a git repository: files, commits, tags |
| `TagMessage.v` | `release.sh:26-37`, `.cliff/detailed.toml` | the message of the tag, as git-cliff and git make it |
| `Platform.v` | `npm/package.json.tmpl`, `release.yaml:53-150, 247-268` | the npm packages of the platforms: `envsubst`, the line that exports the version, targets |
| `Latest.v` | `release.yaml:37-45, 247-271, 322-336, 495-508` | which version is offered behind a sequence of releases |
| `Codec.v` | `smd-core/src/fs.rs:18-26, 85-119`, the tests of `fs.rs`, `browser.rs`, `error.rs`, `config.rs` and `args.rs:131-137` | storing objects; the tests as programs over `System.v` |
| `Ignore.v` | `.gitignore`, `npm/smd/.gitignore`, `pypi/.gitignore`, `release.sh:23` | the patterns, line by line, and an interpreter for them; `git add -A` |
| `NpmBuild.v` | `release.yaml:310-338`, `npm/smd/package.json` | tsup, the files of the package, the job `publish-npm` |
| `Python.v` | `release.yaml:274-303`, `pypi/pyproject.toml` | the version of the Python package after PEP 440 |
| `Suite.v` | `gfm/tests/gfm/*.rs` | the 677 examples as data (generated from the files) |
| `Ci.v` | `.github/workflows/main.yaml` | names of tests, `cargo test` with a filter, the two jobs |
| `Generate.v` | `smd/src/bin/{mangen,completion}.rs`, assets in `smd/Cargo.toml` | two programs over `System.v` |

| statements | proofs |
|---|---|
| `PropertiesRobust.v` (C01, C02, C29, C39) | `LexerFacts`, `LexMono`, `Master`, `NoPanic`, `Termination`, `Outcome`, `DetailsFacts`, `OutputFacts` |
| `PropertiesSafe.v` (C03-C06, C30, C63), vocabulary `Html.v`, `Decode.v` | `HtmlFacts`, `LinkFacts`, `SanitizeFacts`, `Safety`, `SafeClasses`, `RawHtml`, `DecodeFacts`, `Balance`, `Nesting` |
| `PropertiesText.v` (C08-C17, C31-C37), vocabulary `SpecText.v`, `Markdown.v` | `Exec`, `MarkdownFacts`, `MarkdownBlocks`, `MarkdownSound`, `TextFacts` |
| `PropertiesBlocks.v` (C18-C28, C61, C62), vocabulary `SpecBlocks.v` | `MarkdownLists`, `MarkdownTables`, `BlockFacts` |
| `PropertiesGfm.v` (C90-C97), vocabulary `SpecGfm.v` | `GfmFacts` |
| `PropertiesSyntax.v` (C103-C115), vocabulary `SpecSyntax.v` | `SyntaxFacts` |
| `PropertiesIter.v` (C07) | `IterBytesFacts` |
| `PropertiesCli.v` (C40-C51), vocabulary `SpecCli.v` | `SystemFacts`, `CliFacts`, `CliMain`, `CliRuns`, `ConfigFacts`, `Concurrent`, `CliProps` |
| `PropertiesUrl.v` (C116, C117), vocabulary `SpecCli.v`, `SpecPage.v` | `UrlFacts`, `BeginFacts`, `UrlProps` |
| `PropertiesTools.v` (C53-C59) | `LoggerFacts`, `NpmFacts`, `ArgsFacts` |
| `PropertiesArgs.v` (C51, C52, C60, C64-C67), vocabulary `SpecArgs.v`, `SpecLog.v` | `ClapFacts`, `FilterFacts`, `ArgsProps` |
| `PropertiesRelease.v` (C68-C74), vocabulary `SpecRelease.v` | `ReleaseFacts`, `ReleaseProps`, `NumberFacts` |
| `PropertiesJobs.v` (C83-C85) | `ShellFacts`, `JobsFacts` |
| `PropertiesCliff.v` (C88, C89), vocabulary `SpecCliff.v` | `CliffFacts` |
| `PropertiesPrepare.v` (C98-C102), vocabulary `SpecPrepare.v` | `PrepareFacts` |
| `PropertiesTag.v` (C118, C119), vocabulary `SpecTag.v` | `TagFacts` |
| `PropertiesPlatform.v` (C120, C121), vocabulary `SpecJson.v` | `PlatformFacts` |
| `PropertiesLatest.v` (C122) | `LatestFacts` |
| `PropertiesCodec.v` (C123, C124) | `CodecFacts` |
| `PropertiesIgnore.v` (C125, C126) | `SpecIgnore`, `IgnoreFacts` |
| `PropertiesNpmBuild.v` (C127) | `NpmBuildFacts` (the specification is at its beginning) |
| `PropertiesPython.v` (C128) | `SpecPython`, `PythonFacts` |
| `PropertiesTab.v` (C129) | `SpecText`, `TabFacts` |
| `PropertiesBom.v` (C130) | `SpecText`, `SpecCli`, `BomFacts` (which shows that the renderer only appends to its output) |
| `PropertiesChar.v` (C131, C132) | `SpecText`, `Master`, `CharFacts` |
| `PropertiesLink.v` (C28, C133-C138) | `Html`, `SafeClasses`, `BlockFacts`, `LinkNotes` |
| `PropertiesCi.v` (C75-C77), vocabulary `SpecCi.v` | `CiFacts`, `GenerateFacts` |
| `PropertiesMeta.v` (C78–C82) | `Alike`, `Lead`, `MetaFacts`, `Local`, `Sections`, `Final`, `Dos` |
| `PropertiesSize.v` (C38, C86, C87) | `SizeLex`, `SizeFacts`, `Work`, `WorkFacts`, `Depth` |

Every definition of a model file cites the lines it models and says where it simplifies.

### Representation choices

* A Rust `char` is its scalar value (`N`), a `&str`/`String` the list of its chars. Byte lengths
  (`str::len`) occur in `gfm` outside the iterator only on runs of ASCII characters selected by the caller
  (hashes, ticks, spaces, ...), on link schemes after the `is_ascii` test, and in
  `!summary_line.len() >= 20` (a bitwise complement, always true); so counting chars is the same. The
  iterator itself is modelled on bytes and proved to do what the character model does (C07). The logger's
  width counts bytes, as the code does.
* `res A = Ret a | Panic | Hang`. A failing `unwrap` or index is `Panic`.
* Recursion between `lex`, `parse` and `render` is by fuel, the nesting depth of calls; running out is
  `Hang`. The loop of `parse_details` (lexer.rs:892), the only one that need not stop, uses the same fuel.
  All other loops have a bound that is proved sufficient. `LexMono.v` proves that more fuel never changes a
  result that is not `Hang`; "renders" means "some fuel gives `Ret`", "runs forever" means "every fuel
  gives `Hang`".
* A command is a tree of system calls. A run takes one `choice` of the outside world per call; when
  the choices run out the process is dead, so statements about all runs are about crashes at every point too.
  Two processes run in any interleaving (`exec2`).
* Logging calls in `gfm` are dropped; those of `smd` and `smd-core` are calls of the program.

### Not modelled

Stack overflow (but see C87 for the depth of calls) and allocation failure. The texts that `clap` prints; words and variables that are not UTF-8; colours
of log lines; the pypi packaging but for the version; what git-cliff does with messages of several lines; what cargo-deb, generate-rpm, maturin, gpg and the GitHub actions do; replacements of
`sed` with other escapes than `\1`, `\&`, `\\`, `\/`. Of the tests of /repo `verify_cli` and the
example in a comment, which are only known by name.

## Trusted base

* The Coq 8.16.1 kernel and the standard library (`List`, `Arith`, `NArith`, `Bool`, `Lia`, `String`,
  `Ascii`, `DecimalString`, `DecimalNat`, `DecimalFacts`, `Permutation`, `Sorted`).
* Axioms: none of our own, and no theorem depends on any. `Print Assumptions` stands after every property theorem
  and prints `Closed under the global context` for each of them. Checking the compiled files with the libraries they
  load lists seven axioms of the standard library, which come with the files of ssreflect that
  `Coq.Setoids.Setoid` loads and are not used here: `Coq.ssr.ssrunder.Under_rel.Over_rel`, `Under_rel`, `Under_rel_from_rel`, `Under_relE`,
  `over_rel`, `over_rel_done`, `under_rel_done` (all in `Coq.ssr.ssrunder.Under_rel`).
* That the model says what the code does. The correspondence is by reading (line references at each definition) and,
  for `gfm`, by the cross-check below.
* Code that is not in the repository, after its documentation:
  * std functions, as written in `Strings.v`, `Utf8.v`, `Cli.v` (paths), `Args.v` (`canonicalize`).
  * the crate `config` 0.14 (`Config.v`): later sources override earlier ones, names of variables in any case,
    `__` separates, which strings are booleans, a field without value is an error.
  * `sed -E`, `grep`, `bash` and the runner of GitHub, and of cargo the crate `semver` 1.0 (`Release.v`): leftmost longest
    matches, `bash -e` in steps, steps behind a failing one are skipped, jobs wait for the ones they need.
  * `envsubst` of GNU gettext (`Platform.v`); npm's rule for optional dependencies and on which systems the programs of a target run (`SpecJson.v`);
    when GitHub and npm take a version for the latest (`Latest.v`).
  * cargo, libtest and tarpaulin (`Ci.v`): a filter selects by a part of the name of a test; `clap_mangen`, `clap_complete`
    and `cargo-deb` (`Generate.v`): the texts are arbitrary.
  * git and git-cliff on a repository (`Prepare.v`): what `git add -A`, `git commit` and `git tag` do (`TagMessage.v`: how git cleans up the
    message of a tag), and how git-cliff
    divides the commits into releases. Hashes, days and the success of commands are parameters of the theorems; the
    history has no merges. "The hash of a commit does not stand in its files"
    (`fresh`) is a hypothesis where it is needed.
  * git-cliff, git-conventional and Tera (`Cliff.v`): how a message is read, which group it gets, how the template
    is filled in; capital letters are an arbitrary function. `CHANGELOG.md` is what the model makes from the
    commits that it lists (an example in `PropertiesCliff.v`); kinds and messages were read off that file.
  * the crate `toml`: an arbitrary function from text to settings; C47 assumes that it reads the text which
    `initialize` writes as that text means, C124 the same of the texts in the tests. (A reader of a part of TOML in `Config.v` shows that this can be met.)
  * implementations of the traits `Serialize` and `Deserialize`: arbitrary functions (`Codec.v`); C123 assumes that they are inverse.
  * git's handling of .gitignore files (`Ignore.v`), after gitignore(5), dir.c and wildmatch.c; no other sources of patterns. It was compared with git 2.43 on the patterns of /repo (1800 paths) and on random patterns (10000 paths), which differ for sets with a slash only.
  * tsup 8 and the packing of yarn 4 (`NpmBuild.v`), after their sources: where a configuration is looked for, that a build without entries fails, the names of the results, and which files a package has; what a configuration file says is an arbitrary function.
  * maturin and PyPI (`Python.v`): that the version is the one of smd/Cargo.toml, read after the regular expression of PEP 440, and that PyPI takes no local versions. The reader was compared with the package `packaging` of Python on 1500 texts. The order of PEP 440 (`SpecPython.v`) is for versions of equally many numbers without local part.
  * the browser: an arbitrary function from page to PDF; every call may fail; a page is read when it
    is navigated to or while it is waited for. Which file a url names is after the URL Standard and the way
    Chromium turns a file url into a path (`Url.v`), for Unix.
  * the file system: absolute paths, symbolic links for last components, hard links, every call may fail,
    writes may be short, reading is one step.
  * `clap` 4.5 (`Clap.v`) and `env_logger` 0.10 (`Filter.v`), after their sources as far as remembered, for want of
    network; regular expressions are an arbitrary function; `shellexpand::tilde`; execa 8 and node
    (exit status of a rejected promise), atomics of the logger as sequentially consistent.

## Cross-check of the model (not a proof)

`difftest/port.py` is an independent line-by-line transcription of `gfm/src` that works on bytes and byte offsets
like the Rust code. `difftest/fuzz.py` compares it with the extracted Rocq model on random documents
(500 000 documents, no difference). The Rust code itself was never built or run.

`seeded/LOG.jsonl` records wrong programs the theorems were tried on: one definition of a copy of the model is
changed, everything is rebuilt, proofs that fail are left out, and the property theorems that depend on
one of them are listed (`Print Assumptions` names them).

