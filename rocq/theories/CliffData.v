(** * CliffData: the commits of /repo/CHANGELOG.md, generated from it, and its text. *)
From Coq Require Import Ascii String.
From Verif Require Import Strings Cliff.
Open Scope list_scope.

(** The releases it names.  Messages with the capital letter they are shown with. *)
Definition releases : list release :=
[   Release (Some (lit "v0.1.3-pre")) (Some (lit "v0.1.0-pre")) (lit "2025-01-05")
    [ (lit "ccfb4d212bd8ece869d70a041ff178a224df78dc", lit "fix(ci): -""""-");
      (lit "1100a7c46937617fc6ecddf75ff6399c3cc9c18c", lit "fix(ci): Attempt to fix pipeline issues");
      (lit "1d53654751bac41ed8cd4aa36b813b9395c212ff", lit "chore(release): Prepare for v0.1.2-pre");
      (lit "39451d6daec9e467aec1ff3540abdaef23fc8ba2", lit "chore(release): Prepare for v0.1.1-pre") ];
  Release (Some (lit "v0.1.0-pre")) None (lit "2025-01-05")
    [ (lit "143bc0c32cddf63a1ff99b27eee1652b1af707bf", lit "docs(parser): Add example from tests to parser doc");
      (lit "3d66e778620f4b2d57fe93dc078ed397c21b49ec", lit "docs(lexer): Add spec for md behaviour");
      (lit "a03720b54ea74e862434d1cf4cb7087dd666b074", lit "lexer(newline): Lex newlines");
      (lit "29877e26834f32289436da2271bc2795f26cbd4b", lit "parser(whitespace): Parse all whitespace cases");
      (lit "9e743a4cf760a060f792d480e646d47054ad6399", lit "parser(header): Parse header");
      (lit "e7c8e129f503d502e8e6b886c0f68ddb269bb2bf", lit "parser(fmt): Reformat");
      (lit "f8507561f0c81a99d97fa67aab62a388c1f496a1", lit "parser(plaintext): Parse basic plaintext");
      (lit "451494f3e59acd873a678530169dfa771c2eea3d", lit "tests(error): Verifty that errors are constructed correctly");
      (lit "0772f221914e5ca91832a759e4b54bdcbb3428c6", lit "tests(args): Add test for parsing tilde expansion");
      (lit "37bccfde9d24578b9bc7ef344cda6c46b11e09cc", lit "tests(gfm): Enable all test cases");
      (lit "c0a63e146ec487d3fec60da104e17752c959de67", lit "tests(gfm): Add all 677 examples from spec");
      (lit "26462ba51e7babbdd171e6602f62a5692f9aaea7", lit "tests(iter): Add unit tests");
      (lit "38fc59f6025942382ff1476eaf1b71381e92496e", lit "revert(lexer): Remvove comprehensive test");
      (lit "4042eacae45fc864b8dc2b680d01aa55ced61a0b", lit "feat(config): Print string for configuration docs");
      (lit "a234471e655dbfa8997aae3f7d4e185cf272d2a4", lit "feat(parser): Parse tables");
      (lit "e7f47a2b73a264283e00da2ce85caab87d4bdc63", lit "feat(lexer): Lex pipes");
      (lit "641ca8ebeec675c2791586264d11b16dc00d0db7", lit "feat(parser): Parse link details");
      (lit "24ecb13a88dbd6e7fa8655699c4c5c01ce33b4e8", lit "feat(lexer): Lex opening carrot");
      (lit "5ab081ca89ab6ee7cab40cf12bbeca58450790aa", lit "feat(parser): Parse images");
      (lit "cffebab82464d590fff232682eddee296d2a0c06", lit "feat(lexer): Lex !");
      (lit "88319bf1db91502ede2bf981a4fe59eb9a848b1c", lit "feat(parser): Parse Footnotes");
      (lit "6b4dedbece656dacef0e73412da92decbd71a732", lit "feat(parser): Parse links");
      (lit "242aef2973ac31921ddfe84557a16575f69a2e28", lit "feat(lexer): Lex [");
      (lit "ba2dc6a993795a9ae3eef18bf7a6189073c4b78b", lit "feat(parser): Parse codeblocks");
      (lit "2c0bafdd064e92fcfd2e32acd3b4ebf1753a53a6", lit "feat(lexer): Lex codeblocks");
      (lit "6dcc02f401c08e600c7842c1c9671a78b61cd11a", lit "feat(parser): Parse strikethrough");
      (lit "d76624a7e3e0022323e407e2729270bf0dcccfe7", lit "feat(lexer): Lex tilde");
      (lit "2b7ae51065f0df59e917a010a6c6e5737834d7f0", lit "feat(parser): Lex list entries");
      (lit "476119888e1c49b7d1dc970a2a8ca4ef6c5eebc1", lit "feat(lexer): Lex plus minus");
      (lit "c69cc99b4d78e0d5280f1394f7b8ac20d33c5f01", lit "feat(parser): Parse block quotes");
      (lit "90508741d1c67f528ef186ed117d54c505663944", lit "feat(lexer): Lex block quotes");
      (lit "00a8c6d67c86453c4b6ab39f4527a44a14b196e6", lit "feat(args): Print version character in front of version string");
      (lit "7494ed784f603bdb9f27fd05c195fd560689c339", lit "feat(parser): Parse asterisk and underscore");
      (lit "a769e32fad96bf4e34135d131949f40b2ae0bb1e", lit "feat(lexer): Lex asterisk and underscore");
      (lit "bc0d16d3faa5c099b71486f05387b246d8f0708a", lit "feat(lexer): Lex escaped characters");
      (lit "ab2891e892570b8b7722e926900e40ff18accb7d", lit "feat(parser): Parse ordered lists");
      (lit "a2563ccbfa21dd418f0368fdadb3be264ef238e0", lit "feat(lexer): Lex numbers");
      (lit "36e8bdbe2d68b20016842ddc09d64e0f89cd7710", lit "feat(convert): Wrapper for conversion logic");
      (lit "b0e5b96d2a61d660cdebb2036ec188ae5aa8d071", lit "feat(headles_chrome): Add basic wrapper");
      (lit "bb9a307c1d7d8ce42c7223b1a540720a4a95cdd0", lit "feat(config): Add command to generate default config");
      (lit "298e250ef5fd6edd05cb08d3f45f8b256fc013e2", lit "feat(convert): Early exit when converting to html");
      (lit "4024d8f24ab4b601568bdf9404d39711ee85485d", lit "feat(args): Canonicalize path when reading from stdin");
      (lit "929ac7c5a60ad39eb651b1c94197b4ad4125b440", lit "feat(lexer): Improve error msg handling for ParseError");
      (lit "040cdaea0e00fdd78a0538e4bf4e52d9fc83b10c", lit "feat(fs): Add wrapper fn for writing to a file");
      (lit "20702dfd24d4f88dba6b1a8a15fad0aaef2eeab2", lit "feat(logger): Add missing logs");
      (lit "98cf61c0dcaa2fbe9440cb010971008467228f7f", lit "feat(logger): Implement basic logging");
      (lit "24f5962f1c5e9d7f49917410f7734fa8ba1e392c", lit "feat(structure): Add basic structure");
      (lit "adf00e5e065adb409e1f28efabb7dfbf044c9a56", lit "feat(fs): Wrapper for basic file io");
      (lit "719449bcb23c1f32a0c69e07bb75e17a10b3fda4", lit "feat(args): Add basic structure for command parsing");
      (lit "f9857b28267351462e56375c8c181cfc3edb4b1f", lit "feat(lexer): Lex whitespaces and tabs");
      (lit "cf0ffc91ced882040e519cc04e8fffc51091c137", lit "feat(token): Add all possible token types");
      (lit "375646caca0609dd5a52b3ef8c6aff2874d1739a", lit "feat(lexer): Recursive lexing for headers");
      (lit "90fe289d9019263f1184c317a8cdbf90e50a4aa1", lit "feat(parser): Impl basic parser");
      (lit "3f3778b37074c60277ded68885ffabcc9a7446e8", lit "feat(lexer): Lex atx headings");
      (lit "39dba80360848c4e930a923ef13b7266308597c7", lit "feat(lexer): Add basic iter");
      (lit "0ea3445f027d91074798cdacf0e96b48dec8217c", lit "feat(lexer): Replace unwrap() calls with logic");
      (lit "eb6d623d6d2a70ce0696c2feb92f5125d3cbcdc4", lit "feat(lexer): Lex escaped characters");
      (lit "9ec7b744876e34a7ffc84df6e0b9f345b8675de0", lit "feat(lexer): Lex text format");
      (lit "9eceede6de1c38dd4d8e11b67341d4f152074bf8", lit "feat(lexer): Add comprehensive test covering entire lexer");
      (lit "123f65fd2f18b1a985411a2d5990f9c191c25b0a", lit "feat(lexer): Newlines behave like semicolons");
      (lit "5d359faea55abe5838e25a598f9148d7a81973ab", lit "feat(lexer): Lex headers");
      (lit "c217135c25ee08172cb2067dc07770bd828e2e43", lit "feat(lexer): Lex simple strings");
      (lit "d9195000b17f05a87849f11f7e591bfb1d95c205", lit "feat(lexer): Add basic lexer setup");
      (lit "8db077747633bd20b8224a0663ec22e7a9e8566d", lit "feat(lexer): Lex paragraph");
      (lit "686abff5386f3ed1c896eb7bc4c1dce18b75dca5", lit "feat(lexer): Lex header");
      (lit "4f2ac9702169993dfb7150c6ee3a3bd876e3f9f7", lit "init(rust): Init with rust");
      (lit "946c71ae6a09016c0c331a97c570baedc95d2a29", lit "init(template): Git-cliff template");
      (lit "720bf56d82f5c5e2d7221ec7bcfcf1f1f8096beb", lit "fix(ci): Remove duplicate keey");
      (lit "eb542e207d07d9e4e51677adfc9a36f3f88b6bfa", lit "fix(run): Convert parsed result instead of raw file content");
      (lit "c52a7d00952aca45594c020349e137a33b412df0", lit "fix(parser): Remove duplicate code");
      (lit "62600a6f6a202189366cfa4331f25fe0a1bb7fe0", lit "fix(tests): Replace " ++ [8594%N] ++ lit " with \t");
      (lit "bc13a6802416a1f2b99a7c82e32ab51782374838", lit "fix(lexer): Strip paragraph texts after rendering contents");
      (lit "9d35ebab417c905b02855e703dafc3582f918545", lit "fix(lexer): Incorrect logging");
      (lit "515c8aec60cd4a81843a3734b18990a164ca9166", lit "fix(ci): Always return exit-code 0 to continue after tests");
      (lit "c69497f62c2be012881c5ef147d39a842c770b34", lit "fix(lexer): Remove public modifier from fn");
      (lit "5e59dc7eee62e939a3d4da68c8d0cac07b15ab7c", lit "fix(main): Fix sample");
      (lit "aaa47e5fb3f1255acfeb92210a15380a66f3d63e", lit "chore(release): Prepare for v0.1.0-pre");
      (lit "a67dc0abe84a4b3129878be693fb81c357bcb258", lit "chore(release): Prepare for v0.1.0-pre");
      (lit "1f587850a5c5cc838c5959183e05fc97712172d1", lit "chore(release): Remove unwanted LICENSE");
      (lit "7518fe52ee348be306821a6d5bc19c5926f591e3", lit "chore(release): Auto replace versions in config files");
      (lit "cae5aef7baa70ca01a623a644e62e6cd7a4575cf", lit "chore(release): Add npm stuff idk pray");
      (lit "a6e55ccbdf543f84ab8ecde2e7eb3691af38c8ef", lit "chore(release): Add pypi stuff");
      (lit "fc05e422da2cb4793e6e494d443470d5af5234aa", lit "chore(repo): Add editorconfig");
      (lit "cb53b681f1b2b35707d555ee4719500d81d2db94", lit "chore(repo): Add rust toolchain");
      (lit "60cb20ff1b8602f1892d67a69ed2250f3901c1ab", lit "chore(release): Workflow to release to all kinds of pm's");
      (lit "8f09088c8c1a9be3e45a3180ce76635b4eb47484", lit "chore(release): Prepare cargo.toml for release");
      (lit "70082a8f85fbb877f7af12b737deaf19e595ca3d", lit "chore(completions): Add small programm to generate shell completions");
      (lit "7d90becd5dc1c589229b5acd8b5807332e41a38f", lit "chore(mangen): Add small programm to generate mangpage for smd");
      (lit "dd5357e04324c52de1531c8d48812b7cdcb00bcd", lit "chore(fmt): Reformat");
      (lit "0a459f331a1c83cbbfbf42ff9d9edb46b3724338", lit "chore(clippy): Apply linting suggestions");
      (lit "8cc942a54105c777e17c75ae7066954a549662d0", lit "chore(ci): Cache workflow builds");
      (lit "3b2aa5cd30191f52611bf9cad3a0829325e71b70", lit "chore(tests): Fix typo");
      (lit "3d26b82c9ce74aa225a4e499fcff71980162e03f", lit "chore(repo): Update link to codecov page");
      (lit "78265cec1583a2031706aee5e412c8622ccbe986", lit "chore(ci): Push code coverage results even if tests are failing");
      (lit "9ab659b4d6798c37a606302c7f6b4de65e8b95f8", lit "chore(nix): Add cargo-tarpaulin dep");
      (lit "cfc4453980f389b33d5ac4a912c185c463fd4863", lit "chore(ignore): Add html and pdf to .gitignore");
      (lit "f9a64906f640c6defdb3ae4428904340c1dec6f8", lit "chore(ci): Set rustup channel to nightly");
      (lit "1dcad3a07a5322978dfbfab29aff2cc2483c2094", lit "chore(flake): Add act and remove unwanted deps");
      (lit "82d9ff4d9ce22799f1a6a7bed09272ca9fbace54", lit "chore(repo): Move and update ROADMAP");
      (lit "1e2cd570f270d6d1c71bbe77fb5779a9f5dbbac8", lit "chore(repo): Remove color-line from README");
      (lit "9d6b5c7f64b4a9fd20c4cd5ccfddb76d376bc375", lit "chore(reformat): Change rusfmt settings");
      (lit "c71219a13d7f04396ec1129f9e177d97fdc47bee", lit "chore(repo): Reformat with widht=80");
      (lit "5ac6833871be723eef871acf4d488b7ad7d9a2aa", lit "chore(ci): Only run tests for binary in main workflow");
      (lit "be3bc4ea120ce21bf9d69e54db6aff2a4d382774", lit "chore(repo): Update icons in README");
      (lit "e18ce73e80a3e7a21f2e039dc7a6224658a44858", lit "chore(repo): Fix typo in link");
      (lit "0849665020e4f6286a477393c6514b8e69b69be7", lit "chore(repo): Update colors and upload results to code-cov");
      (lit "e78f4f4fde968d2e5216971743cc7b5e9870566d", lit "chore(repo): Fix styling and workflow");
      (lit "334ff7421bdaf9bd09b36a32b1437178415239e4", lit "chore(repo): Update README and add test/code-cov workflow");
      (lit "7a1a2f3112fad7509486c9d7986ff4cdaa4f7b2f", lit "chore(repo): Add roadmap to README");
      (lit "11f8cbf5d2d332a70d58c9d797f1226712469131", lit "refactor(lexer): Remove scuffed unwrap logic");
      (lit "751d9f417a203863af534b3becf4b4d7c0438433", lit "refactor(gfm): Move Parser to `lib`");
      (lit "fba20e073faaafdd27743a17888a60916f0bc43a", lit "refactor(gfm): Extract transpiler into own workspace");
      (lit "8977a41c0a97ab120891805ec2569e08ca7a62e5", lit "refactor(config): Move initialization to core");
      (lit "d719813037ebb072c43a9c56bb6b3b5c4a7f41b0", lit "refactor(parser): Reexport crate insteaf of forwarding");
      (lit "5a717b4e6b5bee955de66b923594c746c99f5442", lit "refactor(repo): Completly rework structure and reset lexer");
      (lit "994d5d3f2ef2c15dde0f71bd5355e2d03b8322a0", lit "refactor(lexer): Make formatting logic more compact") ] ].

(** The lines of the file. *)
Definition file_lines : list str :=
[ lit "# Changelog";
  [];
  [];
  lit "## [0.1.3-pre](https://github.com/Flokkq/https://github.com/orhun/git-cliff/blob/main/cliff.toml/compare/v0.1.0-pre..v0.1.3-pre) - 2025-01-05";
  [];
  [];
  [];
  [];
  lit "### " ++ [128027%N] ++ lit " Bug Fixes";
  [];
  lit "- *(ci)* -""""- - ([ccfb4d2](https://github.com/Flokkq/https://github.com/orhun/git-cliff/blob/main/cliff.toml/commit/ccfb4d212bd8ece869d70a041ff178a224df78dc))";
  lit "- *(ci)* Attempt to fix pipeline issues - ([1100a7c](https://github.com/Flokkq/https://github.com/orhun/git-cliff/blob/main/cliff.toml/commit/1100a7c46937617fc6ecddf75ff6399c3cc9c18c))";
  [];
  lit "### " ++ [128295%N] ++ lit "Chores";
  [];
  lit "- *(release)* Prepare for v0.1.2-pre - ([1d53654](https://github.com/Flokkq/https://github.com/orhun/git-cliff/blob/main/cliff.toml/commit/1d53654751bac41ed8cd4aa36b813b9395c212ff))";
  lit "- *(release)* Prepare for v0.1.1-pre - ([39451d6](https://github.com/Flokkq/https://github.com/orhun/git-cliff/blob/main/cliff.toml/commit/39451d6daec9e467aec1ff3540abdaef23fc8ba2))";
  [];
  [];
  lit "## [0.1.0-pre] - 2025-01-05";
  [];
  [];
  [];
  [];
  lit "### Docs";
  [];
  lit "- *(parser)* Add example from tests to parser doc - ([143bc0c](https://github.com/Flokkq/https://github.com/orhun/git-cliff/blob/main/cliff.toml/commit/143bc0c32cddf63a1ff99b27eee1652b1af707bf))";
  lit "- *(lexer)* Add spec for md behaviour - ([3d66e77](https://github.com/Flokkq/https://github.com/orhun/git-cliff/blob/main/cliff.toml/commit/3d66e778620f4b2d57fe93dc078ed397c21b49ec))";
  [];
  lit "### Lexer";
  [];
  lit "- *(newline)* Lex newlines - ([a03720b](https://github.com/Flokkq/https://github.com/orhun/git-cliff/blob/main/cliff.toml/commit/a03720b54ea74e862434d1cf4cb7087dd666b074))";
  [];
  lit "### Parser";
  [];
  lit "- *(whitespace)* Parse all whitespace cases - ([29877e2](https://github.com/Flokkq/https://github.com/orhun/git-cliff/blob/main/cliff.toml/commit/29877e26834f32289436da2271bc2795f26cbd4b))";
  lit "- *(header)* Parse header - ([9e743a4](https://github.com/Flokkq/https://github.com/orhun/git-cliff/blob/main/cliff.toml/commit/9e743a4cf760a060f792d480e646d47054ad6399))";
  lit "- *(fmt)* Reformat - ([e7c8e12](https://github.com/Flokkq/https://github.com/orhun/git-cliff/blob/main/cliff.toml/commit/e7c8e129f503d502e8e6b886c0f68ddb269bb2bf))";
  lit "- *(plaintext)* Parse basic plaintext - ([f850756](https://github.com/Flokkq/https://github.com/orhun/git-cliff/blob/main/cliff.toml/commit/f8507561f0c81a99d97fa67aab62a388c1f496a1))";
  [];
  lit "### Tests";
  [];
  lit "- *(error)* Verifty that errors are constructed correctly - ([451494f](https://github.com/Flokkq/https://github.com/orhun/git-cliff/blob/main/cliff.toml/commit/451494f3e59acd873a678530169dfa771c2eea3d))";
  lit "- *(args)* Add test for parsing tilde expansion - ([0772f22](https://github.com/Flokkq/https://github.com/orhun/git-cliff/blob/main/cliff.toml/commit/0772f221914e5ca91832a759e4b54bdcbb3428c6))";
  lit "- *(gfm)* Enable all test cases - ([37bccfd](https://github.com/Flokkq/https://github.com/orhun/git-cliff/blob/main/cliff.toml/commit/37bccfde9d24578b9bc7ef344cda6c46b11e09cc))";
  lit "- *(gfm)* Add all 677 examples from spec - ([c0a63e1](https://github.com/Flokkq/https://github.com/orhun/git-cliff/blob/main/cliff.toml/commit/c0a63e146ec487d3fec60da104e17752c959de67))";
  lit "- *(iter)* Add unit tests - ([26462ba](https://github.com/Flokkq/https://github.com/orhun/git-cliff/blob/main/cliff.toml/commit/26462ba51e7babbdd171e6602f62a5692f9aaea7))";
  [];
  lit "### " ++ [8617%N] ++ [65039%N] ++ lit " Reverts";
  [];
  lit "- *(lexer)* Remvove comprehensive test - ([38fc59f](https://github.com/Flokkq/https://github.com/orhun/git-cliff/blob/main/cliff.toml/commit/38fc59f6025942382ff1476eaf1b71381e92496e))";
  [];
  lit "### " ++ [10024%N] ++ lit " Features";
  [];
  lit "- *(config)* Print string for configuration docs - ([4042eac](https://github.com/Flokkq/https://github.com/orhun/git-cliff/blob/main/cliff.toml/commit/4042eacae45fc864b8dc2b680d01aa55ced61a0b))";
  lit "- *(parser)* Parse tables - ([a234471](https://github.com/Flokkq/https://github.com/orhun/git-cliff/blob/main/cliff.toml/commit/a234471e655dbfa8997aae3f7d4e185cf272d2a4))";
  lit "- *(lexer)* Lex pipes - ([e7f47a2](https://github.com/Flokkq/https://github.com/orhun/git-cliff/blob/main/cliff.toml/commit/e7f47a2b73a264283e00da2ce85caab87d4bdc63))";
  lit "- *(parser)* Parse link details - ([641ca8e](https://github.com/Flokkq/https://github.com/orhun/git-cliff/blob/main/cliff.toml/commit/641ca8ebeec675c2791586264d11b16dc00d0db7))";
  lit "- *(lexer)* Lex opening carrot - ([24ecb13](https://github.com/Flokkq/https://github.com/orhun/git-cliff/blob/main/cliff.toml/commit/24ecb13a88dbd6e7fa8655699c4c5c01ce33b4e8))";
  lit "- *(parser)* Parse images - ([5ab081c](https://github.com/Flokkq/https://github.com/orhun/git-cliff/blob/main/cliff.toml/commit/5ab081ca89ab6ee7cab40cf12bbeca58450790aa))";
  lit "- *(lexer)* Lex ! - ([cffebab](https://github.com/Flokkq/https://github.com/orhun/git-cliff/blob/main/cliff.toml/commit/cffebab82464d590fff232682eddee296d2a0c06))";
  lit "- *(parser)* Parse Footnotes - ([88319bf](https://github.com/Flokkq/https://github.com/orhun/git-cliff/blob/main/cliff.toml/commit/88319bf1db91502ede2bf981a4fe59eb9a848b1c))";
  lit "- *(parser)* Parse links - ([6b4dedb](https://github.com/Flokkq/https://github.com/orhun/git-cliff/blob/main/cliff.toml/commit/6b4dedbece656dacef0e73412da92decbd71a732))";
  lit "- *(lexer)* Lex [ - ([242aef2](https://github.com/Flokkq/https://github.com/orhun/git-cliff/blob/main/cliff.toml/commit/242aef2973ac31921ddfe84557a16575f69a2e28))";
  lit "- *(parser)* Parse codeblocks - ([ba2dc6a](https://github.com/Flokkq/https://github.com/orhun/git-cliff/blob/main/cliff.toml/commit/ba2dc6a993795a9ae3eef18bf7a6189073c4b78b))";
  lit "- *(lexer)* Lex codeblocks - ([2c0bafd](https://github.com/Flokkq/https://github.com/orhun/git-cliff/blob/main/cliff.toml/commit/2c0bafdd064e92fcfd2e32acd3b4ebf1753a53a6))";
  lit "- *(parser)* Parse strikethrough - ([6dcc02f](https://github.com/Flokkq/https://github.com/orhun/git-cliff/blob/main/cliff.toml/commit/6dcc02f401c08e600c7842c1c9671a78b61cd11a))";
  lit "- *(lexer)* Lex tilde - ([d76624a](https://github.com/Flokkq/https://github.com/orhun/git-cliff/blob/main/cliff.toml/commit/d76624a7e3e0022323e407e2729270bf0dcccfe7))";
  lit "- *(parser)* Lex list entries - ([2b7ae51](https://github.com/Flokkq/https://github.com/orhun/git-cliff/blob/main/cliff.toml/commit/2b7ae51065f0df59e917a010a6c6e5737834d7f0))";
  lit "- *(lexer)* Lex plus minus - ([4761198](https://github.com/Flokkq/https://github.com/orhun/git-cliff/blob/main/cliff.toml/commit/476119888e1c49b7d1dc970a2a8ca4ef6c5eebc1))";
  lit "- *(parser)* Parse block quotes - ([c69cc99](https://github.com/Flokkq/https://github.com/orhun/git-cliff/blob/main/cliff.toml/commit/c69cc99b4d78e0d5280f1394f7b8ac20d33c5f01))";
  lit "- *(lexer)* Lex block quotes - ([9050874](https://github.com/Flokkq/https://github.com/orhun/git-cliff/blob/main/cliff.toml/commit/90508741d1c67f528ef186ed117d54c505663944))";
  lit "- *(args)* Print version character in front of version string - ([00a8c6d](https://github.com/Flokkq/https://github.com/orhun/git-cliff/blob/main/cliff.toml/commit/00a8c6d67c86453c4b6ab39f4527a44a14b196e6))";
  lit "- *(parser)* Parse asterisk and underscore - ([7494ed7](https://github.com/Flokkq/https://github.com/orhun/git-cliff/blob/main/cliff.toml/commit/7494ed784f603bdb9f27fd05c195fd560689c339))";
  lit "- *(lexer)* Lex asterisk and underscore - ([a769e32](https://github.com/Flokkq/https://github.com/orhun/git-cliff/blob/main/cliff.toml/commit/a769e32fad96bf4e34135d131949f40b2ae0bb1e))";
  lit "- *(lexer)* Lex escaped characters - ([bc0d16d](https://github.com/Flokkq/https://github.com/orhun/git-cliff/blob/main/cliff.toml/commit/bc0d16d3faa5c099b71486f05387b246d8f0708a))";
  lit "- *(parser)* Parse ordered lists - ([ab2891e](https://github.com/Flokkq/https://github.com/orhun/git-cliff/blob/main/cliff.toml/commit/ab2891e892570b8b7722e926900e40ff18accb7d))";
  lit "- *(lexer)* Lex numbers - ([a2563cc](https://github.com/Flokkq/https://github.com/orhun/git-cliff/blob/main/cliff.toml/commit/a2563ccbfa21dd418f0368fdadb3be264ef238e0))";
  lit "- *(convert)* Wrapper for conversion logic - ([36e8bdb](https://github.com/Flokkq/https://github.com/orhun/git-cliff/blob/main/cliff.toml/commit/36e8bdbe2d68b20016842ddc09d64e0f89cd7710))";
  lit "- *(headles_chrome)* Add basic wrapper - ([b0e5b96](https://github.com/Flokkq/https://github.com/orhun/git-cliff/blob/main/cliff.toml/commit/b0e5b96d2a61d660cdebb2036ec188ae5aa8d071))";
  lit "- *(config)* Add command to generate default config - ([bb9a307](https://github.com/Flokkq/https://github.com/orhun/git-cliff/blob/main/cliff.toml/commit/bb9a307c1d7d8ce42c7223b1a540720a4a95cdd0))";
  lit "- *(convert)* Early exit when converting to html - ([298e250](https://github.com/Flokkq/https://github.com/orhun/git-cliff/blob/main/cliff.toml/commit/298e250ef5fd6edd05cb08d3f45f8b256fc013e2))";
  lit "- *(args)* Canonicalize path when reading from stdin - ([4024d8f](https://github.com/Flokkq/https://github.com/orhun/git-cliff/blob/main/cliff.toml/commit/4024d8f24ab4b601568bdf9404d39711ee85485d))";
  lit "- *(lexer)* Improve error msg handling for ParseError - ([929ac7c](https://github.com/Flokkq/https://github.com/orhun/git-cliff/blob/main/cliff.toml/commit/929ac7c5a60ad39eb651b1c94197b4ad4125b440))";
  lit "- *(fs)* Add wrapper fn for writing to a file - ([040cdae](https://github.com/Flokkq/https://github.com/orhun/git-cliff/blob/main/cliff.toml/commit/040cdaea0e00fdd78a0538e4bf4e52d9fc83b10c))";
  lit "- *(logger)* Add missing logs - ([20702df](https://github.com/Flokkq/https://github.com/orhun/git-cliff/blob/main/cliff.toml/commit/20702dfd24d4f88dba6b1a8a15fad0aaef2eeab2))";
  lit "- *(logger)* Implement basic logging - ([98cf61c](https://github.com/Flokkq/https://github.com/orhun/git-cliff/blob/main/cliff.toml/commit/98cf61c0dcaa2fbe9440cb010971008467228f7f))";
  lit "- *(structure)* Add basic structure - ([24f5962](https://github.com/Flokkq/https://github.com/orhun/git-cliff/blob/main/cliff.toml/commit/24f5962f1c5e9d7f49917410f7734fa8ba1e392c))";
  lit "- *(fs)* Wrapper for basic file io - ([adf00e5](https://github.com/Flokkq/https://github.com/orhun/git-cliff/blob/main/cliff.toml/commit/adf00e5e065adb409e1f28efabb7dfbf044c9a56))";
  lit "- *(args)* Add basic structure for command parsing - ([719449b](https://github.com/Flokkq/https://github.com/orhun/git-cliff/blob/main/cliff.toml/commit/719449bcb23c1f32a0c69e07bb75e17a10b3fda4))";
  lit "- *(lexer)* Lex whitespaces and tabs - ([f9857b2](https://github.com/Flokkq/https://github.com/orhun/git-cliff/blob/main/cliff.toml/commit/f9857b28267351462e56375c8c181cfc3edb4b1f))";
  lit "- *(token)* Add all possible token types - ([cf0ffc9](https://github.com/Flokkq/https://github.com/orhun/git-cliff/blob/main/cliff.toml/commit/cf0ffc91ced882040e519cc04e8fffc51091c137))";
  lit "- *(lexer)* Recursive lexing for headers - ([375646c](https://github.com/Flokkq/https://github.com/orhun/git-cliff/blob/main/cliff.toml/commit/375646caca0609dd5a52b3ef8c6aff2874d1739a))";
  lit "- *(parser)* Impl basic parser - ([90fe289](https://github.com/Flokkq/https://github.com/orhun/git-cliff/blob/main/cliff.toml/commit/90fe289d9019263f1184c317a8cdbf90e50a4aa1))";
  lit "- *(lexer)* Lex atx headings - ([3f3778b](https://github.com/Flokkq/https://github.com/orhun/git-cliff/blob/main/cliff.toml/commit/3f3778b37074c60277ded68885ffabcc9a7446e8))";
  lit "- *(lexer)* Add basic iter - ([39dba80](https://github.com/Flokkq/https://github.com/orhun/git-cliff/blob/main/cliff.toml/commit/39dba80360848c4e930a923ef13b7266308597c7))";
  lit "- *(lexer)* Replace unwrap() calls with logic - ([0ea3445](https://github.com/Flokkq/https://github.com/orhun/git-cliff/blob/main/cliff.toml/commit/0ea3445f027d91074798cdacf0e96b48dec8217c))";
  lit "- *(lexer)* Lex escaped characters - ([eb6d623](https://github.com/Flokkq/https://github.com/orhun/git-cliff/blob/main/cliff.toml/commit/eb6d623d6d2a70ce0696c2feb92f5125d3cbcdc4))";
  lit "- *(lexer)* Lex text format - ([9ec7b74](https://github.com/Flokkq/https://github.com/orhun/git-cliff/blob/main/cliff.toml/commit/9ec7b744876e34a7ffc84df6e0b9f345b8675de0))";
  lit "- *(lexer)* Add comprehensive test covering entire lexer - ([9eceede](https://github.com/Flokkq/https://github.com/orhun/git-cliff/blob/main/cliff.toml/commit/9eceede6de1c38dd4d8e11b67341d4f152074bf8))";
  lit "- *(lexer)* Newlines behave like semicolons - ([123f65f](https://github.com/Flokkq/https://github.com/orhun/git-cliff/blob/main/cliff.toml/commit/123f65fd2f18b1a985411a2d5990f9c191c25b0a))";
  lit "- *(lexer)* Lex headers - ([5d359fa](https://github.com/Flokkq/https://github.com/orhun/git-cliff/blob/main/cliff.toml/commit/5d359faea55abe5838e25a598f9148d7a81973ab))";
  lit "- *(lexer)* Lex simple strings - ([c217135](https://github.com/Flokkq/https://github.com/orhun/git-cliff/blob/main/cliff.toml/commit/c217135c25ee08172cb2067dc07770bd828e2e43))";
  lit "- *(lexer)* Add basic lexer setup - ([d919500](https://github.com/Flokkq/https://github.com/orhun/git-cliff/blob/main/cliff.toml/commit/d9195000b17f05a87849f11f7e591bfb1d95c205))";
  lit "- *(lexer)* Lex paragraph - ([8db0777](https://github.com/Flokkq/https://github.com/orhun/git-cliff/blob/main/cliff.toml/commit/8db077747633bd20b8224a0663ec22e7a9e8566d))";
  lit "- *(lexer)* Lex header - ([686abff](https://github.com/Flokkq/https://github.com/orhun/git-cliff/blob/main/cliff.toml/commit/686abff5386f3ed1c896eb7bc4c1dce18b75dca5))";
  [];
  lit "### " ++ [127881%N] ++ lit " Initial Commit";
  [];
  lit "- *(rust)* Init with rust - ([4f2ac97](https://github.com/Flokkq/https://github.com/orhun/git-cliff/blob/main/cliff.toml/commit/4f2ac9702169993dfb7150c6ee3a3bd876e3f9f7))";
  lit "- *(template)* Git-cliff template - ([946c71a](https://github.com/Flokkq/https://github.com/orhun/git-cliff/blob/main/cliff.toml/commit/946c71ae6a09016c0c331a97c570baedc95d2a29))";
  [];
  lit "### " ++ [128027%N] ++ lit " Bug Fixes";
  [];
  lit "- *(ci)* Remove duplicate keey - ([720bf56](https://github.com/Flokkq/https://github.com/orhun/git-cliff/blob/main/cliff.toml/commit/720bf56d82f5c5e2d7221ec7bcfcf1f1f8096beb))";
  lit "- *(run)* Convert parsed result instead of raw file content - ([eb542e2](https://github.com/Flokkq/https://github.com/orhun/git-cliff/blob/main/cliff.toml/commit/eb542e207d07d9e4e51677adfc9a36f3f88b6bfa))";
  lit "- *(parser)* Remove duplicate code - ([c52a7d0](https://github.com/Flokkq/https://github.com/orhun/git-cliff/blob/main/cliff.toml/commit/c52a7d00952aca45594c020349e137a33b412df0))";
  lit "- *(tests)* Replace " ++ [8594%N] ++ lit " with \t - ([62600a6](https://github.com/Flokkq/https://github.com/orhun/git-cliff/blob/main/cliff.toml/commit/62600a6f6a202189366cfa4331f25fe0a1bb7fe0))";
  lit "- *(lexer)* Strip paragraph texts after rendering contents - ([bc13a68](https://github.com/Flokkq/https://github.com/orhun/git-cliff/blob/main/cliff.toml/commit/bc13a6802416a1f2b99a7c82e32ab51782374838))";
  lit "- *(lexer)* Incorrect logging - ([9d35eba](https://github.com/Flokkq/https://github.com/orhun/git-cliff/blob/main/cliff.toml/commit/9d35ebab417c905b02855e703dafc3582f918545))";
  lit "- *(ci)* Always return exit-code 0 to continue after tests - ([515c8ae](https://github.com/Flokkq/https://github.com/orhun/git-cliff/blob/main/cliff.toml/commit/515c8aec60cd4a81843a3734b18990a164ca9166))";
  lit "- *(lexer)* Remove public modifier from fn - ([c69497f](https://github.com/Flokkq/https://github.com/orhun/git-cliff/blob/main/cliff.toml/commit/c69497f62c2be012881c5ef147d39a842c770b34))";
  lit "- *(main)* Fix sample - ([5e59dc7](https://github.com/Flokkq/https://github.com/orhun/git-cliff/blob/main/cliff.toml/commit/5e59dc7eee62e939a3d4da68c8d0cac07b15ab7c))";
  [];
  lit "### " ++ [128295%N] ++ lit "Chores";
  [];
  lit "- *(release)* Prepare for v0.1.0-pre - ([aaa47e5](https://github.com/Flokkq/https://github.com/orhun/git-cliff/blob/main/cliff.toml/commit/aaa47e5fb3f1255acfeb92210a15380a66f3d63e))";
  lit "- *(release)* Prepare for v0.1.0-pre - ([a67dc0a](https://github.com/Flokkq/https://github.com/orhun/git-cliff/blob/main/cliff.toml/commit/a67dc0abe84a4b3129878be693fb81c357bcb258))";
  lit "- *(release)* Remove unwanted LICENSE - ([1f58785](https://github.com/Flokkq/https://github.com/orhun/git-cliff/blob/main/cliff.toml/commit/1f587850a5c5cc838c5959183e05fc97712172d1))";
  lit "- *(release)* Auto replace versions in config files - ([7518fe5](https://github.com/Flokkq/https://github.com/orhun/git-cliff/blob/main/cliff.toml/commit/7518fe52ee348be306821a6d5bc19c5926f591e3))";
  lit "- *(release)* Add npm stuff idk pray - ([cae5aef](https://github.com/Flokkq/https://github.com/orhun/git-cliff/blob/main/cliff.toml/commit/cae5aef7baa70ca01a623a644e62e6cd7a4575cf))";
  lit "- *(release)* Add pypi stuff - ([a6e55cc](https://github.com/Flokkq/https://github.com/orhun/git-cliff/blob/main/cliff.toml/commit/a6e55ccbdf543f84ab8ecde2e7eb3691af38c8ef))";
  lit "- *(repo)* Add editorconfig - ([fc05e42](https://github.com/Flokkq/https://github.com/orhun/git-cliff/blob/main/cliff.toml/commit/fc05e422da2cb4793e6e494d443470d5af5234aa))";
  lit "- *(repo)* Add rust toolchain - ([cb53b68](https://github.com/Flokkq/https://github.com/orhun/git-cliff/blob/main/cliff.toml/commit/cb53b681f1b2b35707d555ee4719500d81d2db94))";
  lit "- *(release)* Workflow to release to all kinds of pm's - ([60cb20f](https://github.com/Flokkq/https://github.com/orhun/git-cliff/blob/main/cliff.toml/commit/60cb20ff1b8602f1892d67a69ed2250f3901c1ab))";
  lit "- *(release)* Prepare cargo.toml for release - ([8f09088](https://github.com/Flokkq/https://github.com/orhun/git-cliff/blob/main/cliff.toml/commit/8f09088c8c1a9be3e45a3180ce76635b4eb47484))";
  lit "- *(completions)* Add small programm to generate shell completions - ([70082a8](https://github.com/Flokkq/https://github.com/orhun/git-cliff/blob/main/cliff.toml/commit/70082a8f85fbb877f7af12b737deaf19e595ca3d))";
  lit "- *(mangen)* Add small programm to generate mangpage for smd - ([7d90bec](https://github.com/Flokkq/https://github.com/orhun/git-cliff/blob/main/cliff.toml/commit/7d90becd5dc1c589229b5acd8b5807332e41a38f))";
  lit "- *(fmt)* Reformat - ([dd5357e](https://github.com/Flokkq/https://github.com/orhun/git-cliff/blob/main/cliff.toml/commit/dd5357e04324c52de1531c8d48812b7cdcb00bcd))";
  lit "- *(clippy)* Apply linting suggestions - ([0a459f3](https://github.com/Flokkq/https://github.com/orhun/git-cliff/blob/main/cliff.toml/commit/0a459f331a1c83cbbfbf42ff9d9edb46b3724338))";
  lit "- *(ci)* Cache workflow builds - ([8cc942a](https://github.com/Flokkq/https://github.com/orhun/git-cliff/blob/main/cliff.toml/commit/8cc942a54105c777e17c75ae7066954a549662d0))";
  lit "- *(tests)* Fix typo - ([3b2aa5c](https://github.com/Flokkq/https://github.com/orhun/git-cliff/blob/main/cliff.toml/commit/3b2aa5cd30191f52611bf9cad3a0829325e71b70))";
  lit "- *(repo)* Update link to codecov page - ([3d26b82](https://github.com/Flokkq/https://github.com/orhun/git-cliff/blob/main/cliff.toml/commit/3d26b82c9ce74aa225a4e499fcff71980162e03f))";
  lit "- *(ci)* Push code coverage results even if tests are failing - ([78265ce](https://github.com/Flokkq/https://github.com/orhun/git-cliff/blob/main/cliff.toml/commit/78265cec1583a2031706aee5e412c8622ccbe986))";
  lit "- *(nix)* Add cargo-tarpaulin dep - ([9ab659b](https://github.com/Flokkq/https://github.com/orhun/git-cliff/blob/main/cliff.toml/commit/9ab659b4d6798c37a606302c7f6b4de65e8b95f8))";
  lit "- *(ignore)* Add html and pdf to .gitignore - ([cfc4453](https://github.com/Flokkq/https://github.com/orhun/git-cliff/blob/main/cliff.toml/commit/cfc4453980f389b33d5ac4a912c185c463fd4863))";
  lit "- *(ci)* Set rustup channel to nightly - ([f9a6490](https://github.com/Flokkq/https://github.com/orhun/git-cliff/blob/main/cliff.toml/commit/f9a64906f640c6defdb3ae4428904340c1dec6f8))";
  lit "- *(flake)* Add act and remove unwanted deps - ([1dcad3a](https://github.com/Flokkq/https://github.com/orhun/git-cliff/blob/main/cliff.toml/commit/1dcad3a07a5322978dfbfab29aff2cc2483c2094))";
  lit "- *(repo)* Move and update ROADMAP - ([82d9ff4](https://github.com/Flokkq/https://github.com/orhun/git-cliff/blob/main/cliff.toml/commit/82d9ff4d9ce22799f1a6a7bed09272ca9fbace54))";
  lit "- *(repo)* Remove color-line from README - ([1e2cd57](https://github.com/Flokkq/https://github.com/orhun/git-cliff/blob/main/cliff.toml/commit/1e2cd570f270d6d1c71bbe77fb5779a9f5dbbac8))";
  lit "- *(reformat)* Change rusfmt settings - ([9d6b5c7](https://github.com/Flokkq/https://github.com/orhun/git-cliff/blob/main/cliff.toml/commit/9d6b5c7f64b4a9fd20c4cd5ccfddb76d376bc375))";
  lit "- *(repo)* Reformat with widht=80 - ([c71219a](https://github.com/Flokkq/https://github.com/orhun/git-cliff/blob/main/cliff.toml/commit/c71219a13d7f04396ec1129f9e177d97fdc47bee))";
  lit "- *(ci)* Only run tests for binary in main workflow - ([5ac6833](https://github.com/Flokkq/https://github.com/orhun/git-cliff/blob/main/cliff.toml/commit/5ac6833871be723eef871acf4d488b7ad7d9a2aa))";
  lit "- *(repo)* Update icons in README - ([be3bc4e](https://github.com/Flokkq/https://github.com/orhun/git-cliff/blob/main/cliff.toml/commit/be3bc4ea120ce21bf9d69e54db6aff2a4d382774))";
  lit "- *(repo)* Fix typo in link - ([e18ce73](https://github.com/Flokkq/https://github.com/orhun/git-cliff/blob/main/cliff.toml/commit/e18ce73e80a3e7a21f2e039dc7a6224658a44858))";
  lit "- *(repo)* Update colors and upload results to code-cov - ([0849665](https://github.com/Flokkq/https://github.com/orhun/git-cliff/blob/main/cliff.toml/commit/0849665020e4f6286a477393c6514b8e69b69be7))";
  lit "- *(repo)* Fix styling and workflow - ([e78f4f4](https://github.com/Flokkq/https://github.com/orhun/git-cliff/blob/main/cliff.toml/commit/e78f4f4fde968d2e5216971743cc7b5e9870566d))";
  lit "- *(repo)* Update README and add test/code-cov workflow - ([334ff74](https://github.com/Flokkq/https://github.com/orhun/git-cliff/blob/main/cliff.toml/commit/334ff7421bdaf9bd09b36a32b1437178415239e4))";
  lit "- *(repo)* Add roadmap to README - ([7a1a2f3](https://github.com/Flokkq/https://github.com/orhun/git-cliff/blob/main/cliff.toml/commit/7a1a2f3112fad7509486c9d7986ff4cdaa4f7b2f))";
  [];
  lit "### " ++ [128668%N] ++ lit " Refactoring";
  [];
  lit "- *(lexer)* Remove scuffed unwrap logic - ([11f8cbf](https://github.com/Flokkq/https://github.com/orhun/git-cliff/blob/main/cliff.toml/commit/11f8cbf5d2d332a70d58c9d797f1226712469131))";
  lit "- *(gfm)* Move Parser to `lib` - ([751d9f4](https://github.com/Flokkq/https://github.com/orhun/git-cliff/blob/main/cliff.toml/commit/751d9f417a203863af534b3becf4b4d7c0438433))";
  lit "- *(gfm)* Extract transpiler into own workspace - ([fba20e0](https://github.com/Flokkq/https://github.com/orhun/git-cliff/blob/main/cliff.toml/commit/fba20e073faaafdd27743a17888a60916f0bc43a))";
  lit "- *(config)* Move initialization to core - ([8977a41](https://github.com/Flokkq/https://github.com/orhun/git-cliff/blob/main/cliff.toml/commit/8977a41c0a97ab120891805ec2569e08ca7a62e5))";
  lit "- *(parser)* Reexport crate insteaf of forwarding - ([d719813](https://github.com/Flokkq/https://github.com/orhun/git-cliff/blob/main/cliff.toml/commit/d719813037ebb072c43a9c56bb6b3b5c4a7f41b0))";
  lit "- *(repo)* Completly rework structure and reset lexer - ([5a717b4](https://github.com/Flokkq/https://github.com/orhun/git-cliff/blob/main/cliff.toml/commit/5a717b4e6b5bee955de66b923594c746c99f5442))";
  lit "- *(lexer)* Make formatting logic more compact - ([994d5d3](https://github.com/Flokkq/https://github.com/orhun/git-cliff/blob/main/cliff.toml/commit/994d5d3f2ef2c15dde0f71bd5355e2d03b8322a0))";
  lit "<!-- generated by git-cliff -->" ].
Definition file : str := flat_map (fun l => l ++ [c_nl]) file_lines.
