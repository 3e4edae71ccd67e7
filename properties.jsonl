{"id": "C01", "title": "Rendering never panics", "statement": "Parser::render returns a String for every input string; it never panics, whatever the Markdown is.", "quantifier": "every string", "why_tests_cant": "A panic hides in a combination of characters nobody wrote a test for; absence of panics is a statement about all strings.", "anchors": ["gfm/src/lib.rs:Parser::render", "gfm/src/lexer.rs:lex_heading", "gfm/src/lexer.rs:parse_details", "gfm/src/lib.rs:parse"]}
{"id": "C02", "title": "Rendering always terminates", "statement": "Parser::render returns after finitely many steps for every input string.", "quantifier": "every string", "why_tests_cant": "A test can only observe that finitely many runs stopped; a non-terminating run is indistinguishable from a slow one.", "anchors": ["gfm/src/lib.rs:Parser::render", "gfm/src/lexer.rs:parse_details", "gfm/src/lexer.rs:next_token", "gfm/src/lib.rs:lex"]}
{"id": "C03", "title": "Output is free of injected markup", "statement": "As the doc comment of Parser::render promises, the HTML produced from an untrusted document contains only tags and attributes of the renderer's own fixed vocabulary: every '<' in the output starts one of those tags, and text of the document never ends up as a tag, an attribute name or an unterminated attribute value.", "quantifier": "every string (the adversary chooses the document)", "why_tests_cant": "An attacker searches the input space for the one string that breaks out; tests only cover known attack strings.", "anchors": ["gfm/src/lib.rs:Parser::render", "gfm/src/lib.rs:sanitize_display_text", "gfm/src/token.rs:ValidURL", "gfm/src/lib.rs:parse"]}
{"id": "C04", "title": "No javascript: links", "statement": "No link destination emitted by the renderer has the scheme javascript, in any letter case, whichever syntax (inline link, link with title, autolink, image) the document uses.", "quantifier": "every string", "why_tests_cant": "Filters are bypassed by unusual spellings; the claim is about all of them.", "anchors": ["gfm/src/token.rs:validate_link", "gfm/src/lexer.rs:lex_links", "gfm/src/lexer.rs:lex_side_carrot", "gfm/src/lib.rs:parse"]}
{"id": "C05", "title": "data: links only for images", "statement": "A link destination with scheme data (any letter case) is only ever emitted if what follows the colon starts with image/.", "quantifier": "every string accepted as a link destination", "why_tests_cant": "The input space is all strings; a test suite only visits finitely many of them.", "anchors": ["gfm/src/token.rs:validate_link", "gfm/src/token.rs:ValidURL"]}
{"id": "C06", "title": "Escaping is lossless and complete", "statement": "For every text t that the renderer emits as escaped text, decoding the HTML character references of the emitted text gives back exactly t without its backslashes, and the emitted text contains none of the characters < > \" ' that could end the surrounding context.", "quantifier": "every string", "why_tests_cant": "Escaping is 14 successive replacements that could interfere with each other on inputs that contain references themselves; only an argument over all strings excludes that.", "anchors": ["gfm/src/lib.rs:sanitize_display_text"]}
{"id": "C07", "title": "No character is ever split", "statement": "The lexer's byte-indexed iterator always stands on a UTF-8 character boundary, so no slice of the input panics or yields part of a character, and it behaves exactly like an iterator over the characters of the input.", "quantifier": "every string, every sequence of iterator operations", "why_tests_cant": "Multi-byte characters can appear at any offset relative to any operation; tests cover a handful of offsets.", "anchors": ["gfm/src/iter.rs:MarkdownIter", "gfm/src/lexer.rs:Lexer"]}
{"id": "C08", "title": "Plain text becomes one paragraph", "statement": "A document of ordinary text (no Markdown syntax, single spaces and single line breaks) renders to exactly one <p>...</p> whose content, decoded, is the non-space characters of the text in order.", "quantifier": "every ordinary text", "why_tests_cant": "The input space is all strings; a test suite only visits finitely many of them.", "anchors": ["gfm/src/lib.rs:parse", "gfm/src/lexer.rs:next_token", "gfm/src/lexer.rs:lex_tabs_spaces", "gfm/src/lexer.rs:lex_newlines"]}
{"id": "C09", "title": "Words stay separated", "statement": "The space or line break between two words of a paragraph is still there in the output, so that words do not run together.", "quantifier": "every two words of ordinary text", "why_tests_cant": "The input space is all strings; a test suite only visits finitely many of them.", "anchors": ["gfm/src/lexer.rs:lex_tabs_spaces", "gfm/src/lexer.rs:lex_newlines", "gfm/src/lib.rs:parse"]}
{"id": "C10", "title": "Blank lines separate paragraphs", "statement": "A sequence of ordinary paragraphs separated by blank lines renders to the concatenation of the renderings of the paragraphs: same number, same order, nothing shared or lost.", "quantifier": "every list of ordinary paragraphs, every number of blank lines between them", "why_tests_cant": "The input space is all strings; a test suite only visits finitely many of them.", "anchors": ["gfm/src/lexer.rs:lex_newlines", "gfm/src/lib.rs:parse"]}
{"id": "C11", "title": "ATX headings", "statement": "n hashes (1..6), a space and an ordinary text render to exactly <hn>text</hn>; a closing run of hashes after a space is not part of the text; what precedes or follows the line is unaffected.", "quantifier": "every n in 1..6, every ordinary heading text", "why_tests_cant": "The input space is all strings; a test suite only visits finitely many of them.", "anchors": ["gfm/src/lexer.rs:lex_heading", "gfm/src/lib.rs:parse"]}
{"id": "C12", "title": "More than six hashes is not a heading", "statement": "A run of seven or more hashes never produces a heading; the hashes and the text are shown as paragraph text.", "quantifier": "every n >= 7, every ordinary text", "why_tests_cant": "n is unbounded.", "anchors": ["gfm/src/lexer.rs:lex_heading"]}
{"id": "C13", "title": "Heading text survives", "statement": "The text of a heading is never lost: if the line after the hashes contains a letter, the heading element shows it, whatever inline syntax (code span, custom id, ...) the line uses.", "quantifier": "every heading line", "why_tests_cant": "The input space is all strings; a test suite only visits finitely many of them.", "anchors": ["gfm/src/lexer.rs:lex_heading"]}
{"id": "C14", "title": "Emphasis", "statement": "*t*, **t** and ***t*** (or underscores) around a text without asterisks or underscores render to em, strong and strong+em around exactly that text, escaped.", "quantifier": "every text without * and _, both delimiters", "why_tests_cant": "The input space is all strings; a test suite only visits finitely many of them.", "anchors": ["gfm/src/lexer.rs:lex_asterisk_underscore", "gfm/src/lib.rs:parse"]}
{"id": "C15", "title": "Strikethrough", "statement": "~~t~~ renders to <strike> around exactly t, escaped; unmatched tildes are shown literally and never strike anything.", "quantifier": "every text without ~", "why_tests_cant": "The input space is all strings; a test suite only visits finitely many of them.", "anchors": ["gfm/src/lexer.rs:lex_tilde", "gfm/src/lib.rs:parse"]}
{"id": "C16", "title": "Inline code is verbatim", "statement": "The text between two equally long runs of backticks (other than three) is emitted verbatim (escaped), with no Markdown interpreted inside.", "quantifier": "every text without backticks, every length of run", "why_tests_cant": "The input space is all strings; a test suite only visits finitely many of them.", "anchors": ["gfm/src/lexer.rs:lex_backticks", "gfm/src/lib.rs:parse"]}
{"id": "C17", "title": "Fenced code blocks are rendered", "statement": "A fenced code block's content appears in the output.", "quantifier": "every fenced block with non-empty content", "why_tests_cant": "The input space is all strings; a test suite only visits finitely many of them.", "anchors": ["gfm/src/lexer.rs:lex_backticks", "gfm/src/lib.rs:parse"]}
{"id": "C18", "title": "Ordered lists", "statement": "Lines '<digit>. text' render to one <ol> with exactly one <li> per line, in order, containing the escaped text.", "quantifier": "every non-empty list of items, every texts without line break", "why_tests_cant": "Number of items and the texts are unbounded.", "anchors": ["gfm/src/lexer.rs:lex_numbers", "gfm/src/lib.rs:parse"]}
{"id": "C19", "title": "Ordered lists may have more than nine items", "statement": "An ordered list item may be numbered with more than one digit.", "quantifier": "every number >= 10", "why_tests_cant": "The number is unbounded.", "anchors": ["gfm/src/lexer.rs:lex_numbers"]}
{"id": "C20", "title": "Bullet lists", "statement": "Lines '- text' (or '+ text', '* text') of ordinary text render to one <ul> with exactly one <li> per line, in order, each containing the rendering of its text.", "quantifier": "every non-empty list of ordinary items", "why_tests_cant": "The input space is all strings; a test suite only visits finitely many of them.", "anchors": ["gfm/src/lexer.rs:lex_plus_minus", "gfm/src/lexer.rs:lex_asterisk_underscore", "gfm/src/lib.rs:parse"]}
{"id": "C21", "title": "Nested list items are rendered", "statement": "An item indented below a bullet item appears in the output.", "quantifier": "every nested item", "why_tests_cant": "The input space is all strings; a test suite only visits finitely many of them.", "anchors": ["gfm/src/lexer.rs:lex_plus_minus", "gfm/src/lib.rs:parse"]}
{"id": "C22", "title": "Task lists", "statement": "Lines '- [ ] text' / '- [x] text' / '- [X] text' render to one task list with exactly one item per line, in order, its box checked iff the source says so.", "quantifier": "every non-empty list of task items", "why_tests_cant": "The input space is all strings; a test suite only visits finitely many of them.", "anchors": ["gfm/src/lexer.rs:lex_plus_minus", "gfm/src/lib.rs:parse"]}
{"id": "C23", "title": "Tables", "statement": "A well-formed table with m columns and n rows of ordinary cells renders to one table with the m headings, n rows of m cells in order, and each cell aligned as its column's delimiter cell says.", "quantifier": "every m, n >= 1 and all ordinary cell texts", "why_tests_cant": "Dimensions and texts are unbounded.", "anchors": ["gfm/src/lexer.rs:lex_pipes", "gfm/src/lib.rs:parse"]}
{"id": "C24", "title": "Malformed tables are shown as text", "statement": "Lines starting with '|' that do not form a table (fewer than three lines, or lines with different numbers of bars) never produce a table; their text is shown, escaped.", "quantifier": "every block of lines starting with '|'", "why_tests_cant": "The input space is all strings; a test suite only visits finitely many of them.", "anchors": ["gfm/src/lexer.rs:lex_pipes"]}
{"id": "C25", "title": "Block quote nesting", "statement": "A quote line with n '>' is shown inside exactly n nested blockquote elements.", "quantifier": "every n >= 1", "why_tests_cant": "n is unbounded; the level is stored in a u8.", "anchors": ["gfm/src/lexer.rs:lex_blockquotes", "gfm/src/lib.rs:parse"]}
{"id": "C26", "title": "Quoted text is escaped once", "statement": "Decoding the text emitted for a quoted line gives back the characters of the line.", "quantifier": "every ordinary quoted line", "why_tests_cant": "The input space is all strings; a test suite only visits finitely many of them.", "anchors": ["gfm/src/lib.rs:parse", "gfm/src/lib.rs:sanitize_display_text"]}
{"id": "C27", "title": "Collapsible sections", "statement": "<details> with a <summary> line renders to a details element with the escaped summary and the rendering of the body; text after </details> is rendered after it.", "quantifier": "every summary and body without tags", "why_tests_cant": "The input space is all strings; a test suite only visits finitely many of them.", "anchors": ["gfm/src/lexer.rs:lex_side_carrot", "gfm/src/lexer.rs:parse_details", "gfm/src/lib.rs:parse"]}
{"id": "C28", "title": "Footnotes", "statement": "Every footnote definition is listed at the end of the output, once and in order of definition, with its escaped text; different footnotes have different ids, and a reference links to the id of its footnote.", "quantifier": "every list of footnote definitions", "why_tests_cant": "The input space is all strings; a test suite only visits finitely many of them.", "anchors": ["gfm/src/lexer.rs:lex_links", "gfm/src/lib.rs:parse"]}
{"id": "C29", "title": "Output is never empty and properly ended", "statement": "The output of Parser::render is never the empty string, and ends with a line break or with </code></pre>.", "quantifier": "every string", "why_tests_cant": "The input space is all strings; a test suite only visits finitely many of them.", "anchors": ["gfm/src/lib.rs:parse"]}
{"id": "C30", "title": "Tags are balanced", "statement": "For each of p, blockquote, ol, ul, li, em, strong, strike, a, pre, code and table elements, the output has as many opening as closing tags.", "quantifier": "every document without raw '<' leaks", "why_tests_cant": "The input space is all strings; a test suite only visits finitely many of them.", "anchors": ["gfm/src/lib.rs:parse"]}
{"id": "C31", "title": "Backslash escapes", "statement": "A backslash before an ASCII punctuation character makes that character literal text: it appears (escaped) in the paragraph and starts no Markdown construct.", "quantifier": "every punctuation character, every following ordinary text", "why_tests_cant": "The input space is all strings; a test suite only visits finitely many of them.", "anchors": ["gfm/src/lexer.rs:lex_escaped_character"]}
{"id": "C32", "title": "A trailing backslash invents no text", "statement": "A document ending in a single backslash shows no characters that are not in the document.", "quantifier": "every ordinary document followed by a backslash", "why_tests_cant": "The input space is all strings; a test suite only visits finitely many of them.", "anchors": ["gfm/src/lexer.rs:lex_escaped_character"]}
{"id": "C33", "title": "Unmatched '<' is shown", "statement": "A '<' that starts no construct is shown as &lt;.", "quantifier": "every ordinary text after the '<'", "why_tests_cant": "The input space is all strings; a test suite only visits finitely many of them.", "anchors": ["gfm/src/lexer.rs:lex_side_carrot"]}
{"id": "C34", "title": "Images", "statement": "![alt](url) renders to an img element whose src is the url and whose alt is the escaped alt text.", "quantifier": "every valid url and alt text", "why_tests_cant": "The input space is all strings; a test suite only visits finitely many of them.", "anchors": ["gfm/src/lexer.rs:lex_images", "gfm/src/lib.rs:parse"]}
{"id": "C35", "title": "Inline links and autolinks", "statement": "[text](url) and <scheme:rest> render to one anchor whose href is the percent-encoded url and whose text is the escaped text.", "quantifier": "every accepted url and text without ']'", "why_tests_cant": "The input space is all strings; a test suite only visits finitely many of them.", "anchors": ["gfm/src/lexer.rs:lex_links", "gfm/src/lexer.rs:lex_side_carrot", "gfm/src/token.rs:validate_link", "gfm/src/lib.rs:parse"]}
{"id": "C36", "title": "Thematic breaks", "statement": "A line of three or more '-' (or '*', or '_') renders to exactly one <hr />.", "quantifier": "every length >= 3", "why_tests_cant": "The length is unbounded.", "anchors": ["gfm/src/lexer.rs:lex_plus_minus", "gfm/src/lexer.rs:lex_asterisk_underscore"]}
{"id": "C37", "title": "Hard line breaks", "statement": "Two or more spaces before a line break produce a <br>.", "quantifier": "every number >= 2 of spaces, every two lines of ordinary text", "why_tests_cant": "The input space is all strings; a test suite only visits finitely many of them.", "anchors": ["gfm/src/lexer.rs:lex_tabs_spaces", "gfm/src/lib.rs:parse"]}
{"id": "C38", "title": "Output size is bounded", "statement": "The size of the output is bounded by a polynomial in the size of the input: a small document cannot blow up into an unbounded amount of HTML.", "quantifier": "every string", "why_tests_cant": "Blow-up inputs are adversarial.", "anchors": ["gfm/src/lib.rs:parse", "gfm/src/lexer.rs:lex_pipes"]}
{"id": "C39", "title": "The lexer always makes progress", "statement": "Every token the lexer produces consumes at least one character of the input and the lexer never reads a character twice, so the number of tokens is at most the number of characters.", "quantifier": "every string, every lexer state", "why_tests_cant": "The input space is all strings; a test suite only visits finitely many of them.", "anchors": ["gfm/src/lexer.rs:next_token", "gfm/src/lib.rs:lex"]}
{"id": "C40", "title": "smd parse -o html writes the rendering", "statement": "If `smd parse -i F -o html` exits with 0, the file F with its extension replaced by html contains exactly the rendering of F's previous content, and no other file changed.", "quantifier": "every file system state, input path and file content", "why_tests_cant": "The states of a file system are unbounded; errors can occur at every system call.", "anchors": ["smd/src/lib.rs:run", "smd-core/src/fs.rs:write_to_file", "smd-core/src/fs.rs:read_to_string"]}
{"id": "C41", "title": "Success means the whole output was written", "statement": "If a conversion exits with 0, all bytes of the output were written to the output file.", "quantifier": "every behaviour of write(2) allowed by the system (short writes included)", "why_tests_cant": "Short writes cannot be provoked reliably.", "anchors": ["smd-core/src/fs.rs:write_to_file", "smd-core/src/fs.rs:write_bytes"]}
{"id": "C42", "title": "A crash never destroys the previous output", "statement": "If the process dies at any point of a conversion, the output file holds either its complete previous content or the complete new content.", "quantifier": "every crash point", "why_tests_cant": "Tests do not crash between two system calls.", "anchors": ["smd-core/src/fs.rs:write_to_file", "smd/src/lib.rs:run"]}
{"id": "C43", "title": "The input file is never modified", "statement": "A conversion never changes the input file.", "quantifier": "every input path and file system state", "why_tests_cant": "The input space is all strings; a test suite only visits finitely many of them.", "anchors": ["smd/src/lib.rs:run"]}
{"id": "C44", "title": "Different inputs have different outputs", "statement": "Converting two different input files writes two different output files.", "quantifier": "every pair of input paths", "why_tests_cant": "The input space is all strings; a test suite only visits finitely many of them.", "anchors": ["smd/src/lib.rs:run"]}
{"id": "C45", "title": "PDF conversion leaves other files alone", "statement": "A PDF conversion creates or changes no file other than the output: its temporary file did not exist before and is gone afterwards, on success and on failure.", "quantifier": "every file system state, every failing step", "why_tests_cant": "Requires failures of the browser at each step and a colliding file.", "anchors": ["smd-core/src/convert.rs:PDFConverter", "smd-core/src/browser.rs:open_file"]}
{"id": "C46", "title": "Concurrent PDF conversions do not mix", "statement": "Of several PDF conversions running at the same time, each output file is the PDF of its own input.", "quantifier": "every interleaving of two processes", "why_tests_cant": "Schedules cannot be enumerated by tests.", "anchors": ["smd-core/src/convert.rs:PDFConverter"]}
{"id": "C47", "title": "initialize never overwrites a configuration", "statement": "`smd initialize` fails without changing anything if a configuration file exists; otherwise it creates a file that load_config reads back as the default configuration.", "quantifier": "every file system state, every interleaving with another initialize", "why_tests_cant": "The input space is all strings; a test suite only visits finitely many of them.", "anchors": ["smd-core/src/config.rs:initialize", "smd-core/src/config.rs:load_config"]}
{"id": "C48", "title": "An unreadable configuration stops the conversion", "statement": "If a configuration file exists but cannot be read or parsed, `smd parse` exits with non-zero status and changes no file; if none exists the defaults are used.", "quantifier": "every file system state and environment", "why_tests_cant": "The input space is all strings; a test suite only visits finitely many of them.", "anchors": ["smd-core/src/config.rs:load_config", "smd/src/lib.rs:run"]}
{"id": "C49", "title": "Configuration precedence", "statement": "A setting given by an environment variable SMD__... overrides the file; a setting given by neither is an error or the default as documented; the result does not depend on the order of the variables.", "quantifier": "every file content and environment", "why_tests_cant": "The input space is all strings; a test suite only visits finitely many of them.", "anchors": ["smd-core/src/config.rs:parse_from_str"]}
{"id": "C50", "title": "Configuration options take effect", "statement": "on_parse_error and keep_temp_files change what `smd parse` does as documented.", "quantifier": "every configuration", "why_tests_cant": "The input space is all strings; a test suite only visits finitely many of them.", "anchors": ["smd-core/src/config.rs:ParseConfig", "smd/src/lib.rs:run"]}
{"id": "C51", "title": "Exit status", "statement": "smd exits with 0 iff the command succeeded, and with 1 and an error message otherwise.", "quantifier": "every command and file system state", "why_tests_cant": "The input space is all strings; a test suite only visits finitely many of them.", "anchors": ["smd/src/main.rs:main", "smd/src/lib.rs:run"]}
{"id": "C52", "title": "Verbosity flag", "statement": "-v given once selects debug, more than once trace, whatever RUST_LOG says; without it RUST_LOG decides and the default is info.", "quantifier": "every count of -v and every environment", "why_tests_cant": "The input space is all strings; a test suite only visits finitely many of them.", "anchors": ["smd/src/main.rs:main"]}
{"id": "C53", "title": "Log columns stay aligned", "statement": "Every log line pads its target to at least the longest target logged before.", "quantifier": "every sequence of log records and every interleaving of threads", "why_tests_cant": "Schedules and histories are unbounded.", "anchors": ["smd/src/logger.rs:max_target_width", "smd/src/logger.rs:init"]}
{"id": "C54", "title": "npm wrapper passes options faithfully", "statement": "optionsToStringArgs turns an options object into the argument vector its documentation describes: true becomes a flag, false and null are dropped, arrays repeat the option, other values follow their option; nothing else is emitted and order is kept.", "quantifier": "every options object", "why_tests_cant": "The input space is all strings; a test suite only visits finitely many of them.", "anchors": ["npm/smd/src/optionsToStringArgs.ts:optionsToStringArgs"]}
{"id": "C55", "title": "npm option names are unambiguous", "statement": "Two different option keys never produce the same command line flag.", "quantifier": "every two keys", "why_tests_cant": "The input space is all strings; a test suite only visits finitely many of them.", "anchors": ["npm/smd/src/optionsToStringArgs.ts:optionsToStringArgs"]}
{"id": "C56", "title": "The npm package runs smd", "statement": "The executable that the npm package starts is smd's.", "quantifier": "every platform and architecture", "why_tests_cant": "Tests run on one platform, with the package installed.", "anchors": ["npm/smd/src/getExePath.ts:getExePath"]}
{"id": "C57", "title": "The npm command passes on the exit status", "statement": "The npm command exits with the status of the program it ran.", "quantifier": "every way the program can end", "why_tests_cant": "Failing runs with every status are not tested.", "anchors": ["npm/smd/src/cli.ts:run", "npm/smd/src/index.ts:runGitCliff"]}
{"id": "C58", "title": "The input argument is canonical", "statement": "--input is turned into the path of an existing file or directory that is no symbolic link; giving this path again means the same; every existing path can be given; a tilde stands for the home directory at the beginning, alone or before a slash, and nowhere else.", "quantifier": "every file system state, working directory and argument", "why_tests_cant": "The input space is all strings and all file systems.", "anchors": ["smd/src/args.rs:parse_dir"]}
{"id": "C59", "title": "The output is beside the file the user named", "statement": "The output is written to the directory of the path given with --input.", "quantifier": "every file system state and argument", "why_tests_cant": "Tests do not use symbolic links.", "anchors": ["smd/src/args.rs:parse_dir", "smd/src/lib.rs:run"]}
{"id": "C60", "title": "--version prints the version", "statement": "-V and --version print the version.", "quantifier": "both forms of the flag", "why_tests_cant": "It is not tested.", "anchors": ["smd/src/args.rs:Cli"]}
{"id": "C61", "title": "A table cell shows its content once", "statement": "What is written once in a cell of a table is shown once in that cell: text, emphasis, code spans and links alike.", "quantifier": "every table and every cell content", "why_tests_cant": "Whether something is repeated depends on the mix of constructs in the cell; the number of mixes is unbounded.", "anchors": ["gfm/src/lib.rs:parse", "gfm/src/token.rs:is_usable_in_table"]}
{"id": "C62", "title": "Footnote references are numbered", "statement": "References to different footnotes show different numbers, counted from 1 in the order of the document.", "quantifier": "every document and every list of references", "why_tests_cant": "The numbers depend on how the lexer splits the text around the references; the input space is all strings.", "anchors": ["gfm/src/lib.rs:parse", "gfm/src/lexer.rs:lex_links"]}
{"id": "C63", "title": "Elements are properly nested", "statement": "In the output every start tag of an element that has an end tag is matched by an end tag of the same name, and elements are closed in the reverse of the order in which they were opened.", "quantifier": "every document for which rendering succeeds", "why_tests_cant": "Which elements are open when a construct ends depends on everything before it; the number of combinations of constructs is unbounded.", "anchors": ["gfm/src/lib.rs:parse", "gfm/src/lexer.rs:lex_heading"]}
{"id": "C64", "title": "The command line is understood as documented", "statement": "smd accepts exactly: any number of verbosity flags, then parse with one --input and at most one --output in any order and any spelling, or initialize; help is shown to whoever asks for it; every other command line is refused with status 2 and without effect.", "quantifier": "every list of words, home directory, working directory and file system", "why_tests_cant": "The command lines are unboundedly many, and so are the ways to abbreviate, join and repeat arguments.", "anchors": ["smd/src/args.rs:Cli", "smd/src/args.rs:ParseArgs", "smd/src/main.rs:main"]}
{"id": "C65", "title": "RUST_LOG selects log records", "statement": "Of the entries of RUST_LOG the last one for the most specific module decides whether a record is shown; an expression behind a slash hides messages without a match; an empty value shows errors only.", "quantifier": "every list of entries and every record", "why_tests_cant": "Lists of entries and module names are unbounded; precedence shows only in combinations.", "anchors": ["smd/src/logger.rs:init", "smd/src/main.rs:main"]}
{"id": "C66", "title": "The options of the npm package reach the program", "statement": "Every object of the type Options is turned into arguments with which the program runs a command.", "quantifier": "every object of the type Options", "why_tests_cant": "Objects combine 39 keys with arbitrary strings and arrays.", "anchors": ["npm/smd/src/options.ts:Options", "npm/smd/src/optionsToStringArgs.ts:optionsToStringArgs", "smd/src/args.rs:Cli"]}
{"id": "C67", "title": "The usage line is right", "statement": "A command line of the form the usage text shows, options followed by flags, is accepted; flags may also be given behind the command.", "quantifier": "all options and flags in all spellings", "why_tests_cant": "Options take arbitrary paths in five spellings each.", "anchors": ["smd/src/args.rs:Cli"]}
{"id": "C68", "title": "A release changes versions and nothing else", "statement": "release.sh replaces the versions in the lines that carry one by the version of the tag and leaves all other text as it is.", "quantifier": "all tags and all contents of the four files", "why_tests_cant": "Tags and files are arbitrary texts; greedy expressions and characters special to sed show only on unusual lines and tags.", "anchors": ["release.sh"]}
{"id": "C69", "title": "After a release the crates fit together", "statement": "After release.sh cargo can resolve the dependencies of smd on smd-core and gfm.", "quantifier": "all versions newer than the present one", "why_tests_cant": "A test would have to make a release for each version.", "anchors": ["release.sh", "smd/Cargo.toml", "smd-core/Cargo.toml", "gfm/Cargo.toml"]}
{"id": "C70", "title": "The last release counts", "statement": "Preparing a release and then another one leaves the files as if only the last one had been prepared.", "quantifier": "all pairs of versions and all files", "why_tests_cant": "Pairs of versions and files are unbounded.", "anchors": ["release.sh"]}
{"id": "C71", "title": "A failing step stops the release", "statement": "If a command of release.sh fails, no tag is made and the script reports it.", "quantifier": "every pattern of failures and every tag", "why_tests_cant": "Failures of git, git-cliff and sed cannot all be provoked.", "anchors": ["release.sh"]}
{"id": "C72", "title": "Script and workflow agree on the version", "statement": "The version that release.sh writes for a tag is the one under which the workflow packs it, and the tag of every version starts the workflow.", "quantifier": "all tags and all versions", "why_tests_cant": "Versions are unbounded; the workflow runs only on GitHub.", "anchors": ["release.sh", ".github/workflows/release.yaml"]}
{"id": "C73", "title": "A tag publishes the packages of all platforms", "statement": "Pushing a tag publishes the binaries and packages of all platforms of the matrix, under the names that the npm package asks for.", "quantifier": "all tags, all outcomes of the external commands", "why_tests_cant": "The workflow runs only on GitHub and publishes.", "anchors": [".github/workflows/release.yaml", "npm/smd/package.json"]}
{"id": "C74", "title": "The binary is published on crates.io behind the libraries", "statement": "The job that publishes the crates waits until the libraries are in the index and then publishes the binary.", "quantifier": "all states of the index over time", "why_tests_cant": "Depends on the index of crates.io over an unbounded time.", "anchors": [".github/workflows/release.yaml"]}
{"id": "C75", "title": "The workflow fails if a test fails", "statement": "If the workflow of pushes and pull requests succeeds, all tests of the workspace pass.", "quantifier": "all outcomes of all tests", "why_tests_cant": "It is about which tests are run at all.", "anchors": [".github/workflows/main.yaml", "gfm/tests/main.rs"]}
{"id": "C76", "title": "The tests of the repository pass", "statement": "The renderer gives the expected HTML for every example of the GitHub specification in the tests, and the iterator the expected answers.", "quantifier": "all tests of the renderer and of the iterator", "why_tests_cant": "The tests are not run by the workflow.", "anchors": ["gfm/tests/gfm", "gfm/src/iter.rs"]}
{"id": "C77", "title": "Manual and completions are complete and where the package looks for them", "statement": "If smd-mangen or smd-completions succeeds, the manual and all completion scripts are complete in a new OUT_DIR, under the names the Debian package uses; no other file ever changes; without OUT_DIR they fail.", "quantifier": "all texts, all directories, all outcomes of system calls, crashes at every point", "why_tests_cant": "Short writes and crashes at every point.", "anchors": ["smd/src/bin/mangen.rs", "smd/src/bin/completion.rs", "smd/Cargo.toml"]}
{"id": "C78", "title": "Letters beyond ASCII are all alike", "statement": "Exchanging chars beyond ASCII that are not white space for others of that kind exchanges them in the rendering and changes nothing else; the renderer then also panics or runs forever on the same documents.", "quantifier": "all documents, all maps of chars", "why_tests_cant": "There are 150000 such letters in Unicode; tests try a handful.", "anchors": ["gfm/src/lexer.rs", "gfm/src/lib.rs", "gfm/src/token.rs"]}
{"id": "C79", "title": "Empty lines in front of a document make no difference", "statement": "A document with empty lines in front of it is rendered as without them.", "quantifier": "all documents, all numbers of lines", "why_tests_cant": "All documents.", "anchors": ["gfm/src/lexer.rs:257-331", "gfm/src/lib.rs:52-139"]}
{"id": "C80", "title": "What stands behind an empty line is rendered as if it stood alone", "statement": "If a document is cut at an empty line, its rendering is the rendering of the first part followed by that of the second, but for newlines at the seam; whether it panics or runs forever depends on the second part alone once the first is rendered.", "quantifier": "all documents, all places of the cut", "why_tests_cant": "Both parts are arbitrary; a test tries one pair.", "anchors": ["gfm/src/lexer.rs:48-331", "gfm/src/lib.rs:39-139", "gfm/src/lib.rs:522-566"]}
{"id": "C81", "title": "Empty lines behind a document make no difference", "statement": "A document with line breaks added at its end is rendered as without them.", "quantifier": "all documents, all numbers of line breaks", "why_tests_cant": "All documents.", "anchors": ["gfm/src/lexer.rs:203-331", "gfm/src/lib.rs:39-139", "gfm/src/lib.rs:522-566"]}
{"id": "C82", "title": "Windows line ends make no difference", "statement": "A document whose lines end in a carriage return and a line feed is rendered as the same document with line feeds alone.", "quantifier": "all documents", "why_tests_cant": "All documents; the suite has no file with Windows line ends.", "anchors": ["gfm/src/lexer.rs:203-263", "gfm/src/lib.rs:52-139"]}
{"id": "C83", "title": "Texts put into the scripts of the release stay texts", "statement": "The scripts of the release workflow treat the changelog, the version and the passphrase they are given as text: they print it, or use it as one word, and run no part of it.", "quantifier": "all changelogs, tags and passphrases", "why_tests_cant": "The workflow runs only for a release, with the messages that happen to be in it; a harmful one must be looked for.", "anchors": [".github/workflows/release.yaml:34-35", ".github/workflows/release.yaml:197", ".github/workflows/release.yaml:210-218", ".github/workflows/release.yaml:376-393", ".github/workflows/release.yaml:429-444"]}
{"id": "C84", "title": "A release is published everywhere or nowhere", "statement": "No job of the release workflow publishes anything unless the changelog and the binaries of the same release have been published.", "quantifier": "all tags, all outcomes of the jobs", "why_tests_cant": "The outcomes of eight jobs outside of the repository cannot be tried.", "anchors": [".github/workflows/release.yaml:12-49", ".github/workflows/release.yaml:310-344", ".github/workflows/release.yaml:360-362", ".github/workflows/release.yaml:413-415", ".github/workflows/release.yaml:464-497"]}
{"id": "C85", "title": "Every Python wheel is built by the step of its platform", "statement": "Every build that is to have a Python wheel has it built by exactly one step of the workflow, those for musl by the step for musl.", "quantifier": "all builds of the matrix, all tags", "why_tests_cant": "The workflow runs only for a release; a step that never runs fails no test.", "anchors": [".github/workflows/release.yaml:53-150", ".github/workflows/release.yaml:274-302"]}
{"id": "C86", "title": "The work of rendering is at most quadratic", "statement": "Over all calls that rendering makes of the lexer and the parser, the lengths of their inputs sum up to at most a constant times the square of the length of the document, however its constructs are nested.", "quantifier": "all documents, also those for which rendering panics or does not end", "why_tests_cant": "List items, quotations, headings, details and table cells are lexed again, so a nesting nobody tried could make the work exponential.", "anchors": ["gfm/src/lib.rs:30-50", "gfm/src/lib.rs:235-258", "gfm/src/lib.rs:410-499", "gfm/src/lexer.rs:203-255", "gfm/src/lexer.rs:487-558", "gfm/src/lexer.rs:867-979"]}
{"id": "C87", "title": "No document makes the renderer recurse without bound", "statement": "There is a number of nested calls of the renderer that no document exceeds, so that no document can exhaust the stack.", "quantifier": "all documents that render", "why_tests_cant": "Tests nest a few levels; the depth at which the stack ends is not reached by any of them.", "anchors": ["gfm/src/lib.rs:30-50", "gfm/src/lib.rs:235-258", "gfm/src/lib.rs:410-420", "gfm/src/lexer.rs:203-255", "gfm/src/lexer.rs:867-907"]}
{"id": "C88", "title": "Every commit is listed once in the changelog, under the heading of its kind", "statement": "The changelog written for a release has one section for every kind of commit of the release, and every commit is listed exactly once, in the section of its kind, in the order of the history.", "quantifier": "all histories of releases and all messages of commits", "why_tests_cant": "Nothing in the repository tests the template; the only check is the file that it once made.", "anchors": [".cliff/default.toml:14-43", ".cliff/default.toml:49-61", "release.sh:22"]}
{"id": "C89", "title": "The links of the changelog lead to the repository", "statement": "Every link that the changelog makes for a commit or a release leads into the repository of the project.", "quantifier": "all histories of releases and all messages of commits", "why_tests_cant": "The address is put together from the settings when a release is made; no test looks at it.", "anchors": [".cliff/default.toml:6-8", ".cliff/default.toml:15-24", ".cliff/default.toml:26-35"]}
{"id": "C90", "title": "A marker inside a line is text", "statement": "The characters that begin a heading, a quote or a list item (#, >, -, +, * or a number with a dot, and a blank) begin one only at the start of a line; behind other text on the same line they are shown as text.", "quantifier": "every marker, every text before and behind it", "why_tests_cant": "The input space is all texts; a test suite only visits finitely many of them.", "anchors": ["gfm/src/lexer.rs:lex_heading", "gfm/src/lexer.rs:lex_blockquotes", "gfm/src/lexer.rs:lex_plus_minus", "gfm/src/lexer.rs:lex_numbers", "gfm/src/lib.rs:parse"]}
{"id": "C91", "title": "Underlined lines are headings", "statement": "A line of text underlined with '=' is a heading of the first level, one underlined with '-' a heading of the second.", "quantifier": "every text, every length of the underline", "why_tests_cant": "The input space is all texts; a test suite only visits finitely many of them.", "anchors": ["gfm/src/lexer.rs:lex_plus_minus", "gfm/src/lib.rs:parse"]}
{"id": "C92", "title": "Character references stand for their characters", "statement": "&name; and &#number; in the text are shown as the character they stand for.", "quantifier": "every reference, every text around it", "why_tests_cant": "The input space is all texts; a test suite only visits finitely many of them.", "anchors": ["gfm/src/lib.rs:sanitize_display_text", "gfm/src/lib.rs:parse"]}
{"id": "C93", "title": "Links by reference", "statement": "[label] and [text][label] are links to the destination of a definition [label]: destination elsewhere in the document, which is not shown itself.", "quantifier": "every label and destination", "why_tests_cant": "The input space is all texts; a test suite only visits finitely many of them.", "anchors": ["gfm/src/lexer.rs:lex_links", "gfm/src/lib.rs:parse"]}
{"id": "C94", "title": "Emphasis inside other constructs", "statement": "Emphasis inside strong emphasis, inside text that is struck through and inside the text of a link is rendered as emphasis there.", "quantifier": "every text", "why_tests_cant": "The input space is all texts; a test suite only visits finitely many of them.", "anchors": ["gfm/src/lexer.rs:lex_asterisk_underscore", "gfm/src/lexer.rs:lex_tilde", "gfm/src/lexer.rs:lex_links"]}
{"id": "C95", "title": "The rows of a table may have fewer or more cells than its head", "statement": "A row of a table with fewer cells than the head is filled up with empty ones, the cells beyond the head are left out, and the rest of the table is not affected.", "quantifier": "every table, every number of cells in a row", "why_tests_cant": "The input space is all texts; a test suite only visits finitely many of them.", "anchors": ["gfm/src/lexer.rs:lex_pipes"]}
{"id": "C96", "title": "Underscores inside words are text", "statement": "An underscore between two letters or digits is shown as it is: names like snake_case_name stay what they are.", "quantifier": "every word with underscores", "why_tests_cant": "The input space is all texts; a test suite only visits finitely many of them.", "anchors": ["gfm/src/lexer.rs:lex_asterisk_underscore"]}
{"id": "C97", "title": "Addresses in the text are links", "statement": "An address that begins with http://, https:// or www. is a link, without any brackets.", "quantifier": "every address", "why_tests_cant": "The input space is all texts; a test suite only visits finitely many of them.", "anchors": ["gfm/src/lexer.rs:lex_side_carrot", "gfm/src/lib.rs:parse"]}
{"id": "C98", "title": "The tag of a release points to its version", "statement": "After release.sh has made the tag of a version, the tag points to a commit whose files have this version in them and whose CHANGELOG.md is the one that git-cliff makes for it.", "quantifier": "every repository, every version, every set of commands that fail", "why_tests_cant": "The state of a repository and the failures of commands are unbounded; the project has no test of the script at all.", "anchors": ["release.sh:16-38"]}
{"id": "C99", "title": "A release changes nothing else", "statement": "The commit that release.sh makes changes the versions and CHANGELOG.md and no other file.", "quantifier": "every repository, every state of the working tree", "why_tests_cant": "The state of a repository and the failures of commands are unbounded; the project has no test of the script at all.", "anchors": ["release.sh:22-23"]}
{"id": "C100", "title": "The changelog in the repository is up to date", "statement": "The CHANGELOG.md in the commit of a release is the one that git-cliff makes of the repository at this commit.", "quantifier": "every history", "why_tests_cant": "The state of a repository and the failures of commands are unbounded; the project has no test of the script at all.", "anchors": ["release.sh:22-23", ".cliff/default.toml:26-62"]}
{"id": "C101", "title": "A release can be made again", "statement": "If release.sh is run a second time for the same tag, nothing changes.", "quantifier": "every repository, every tag", "why_tests_cant": "The state of a repository and the failures of commands are unbounded; the project has no test of the script at all.", "anchors": ["release.sh:16-39"]}
{"id": "C102", "title": "The lock file of a release fits", "statement": "In the commit that release.sh tags, Cargo.lock names the same version for the crates of the workspace as their Cargo.toml, so that cargo --locked accepts it.", "quantifier": "every repository, every version", "why_tests_cant": "The state of a repository is unbounded; the project has no test of the script at all.", "anchors": ["release.sh:16-23", "Cargo.lock"]}
{"id": "C103", "title": "A mark that is not closed is text, and nothing else", "statement": "If a bracket, a pair of asterisks, underscores or tildes, a run of backticks or a code fence is never closed, the mark is shown as text and everything behind it is rendered as if the mark were any other text.", "quantifier": "every text before it, every rest of a document", "why_tests_cant": "The texts around and inside the construct are unbounded; the tests of the project have no such document or only single ones.", "anchors": ["gfm/src/lexer.rs:lex_links", "gfm/src/lexer.rs:lex_asterisk_underscore", "gfm/src/lexer.rs:lex_tilde", "gfm/src/lexer.rs:lex_backticks"]}
{"id": "C104", "title": "A construct inside a line ends with its paragraph", "statement": "Emphasis, strikethrough and the text of a link never reach over an empty line: there the paragraph ends, and the marks are text.", "quantifier": "all texts before and behind the empty line", "why_tests_cant": "The texts around and inside the construct are unbounded; the tests of the project have no such document or only single ones.", "anchors": ["gfm/src/lexer.rs:lex_asterisk_underscore", "gfm/src/lexer.rs:lex_tilde", "gfm/src/lexer.rs:lex_links"]}
{"id": "C105", "title": "An indented line continues its paragraph", "statement": "A line of text that is indented is, behind a line of a paragraph, part of this paragraph; it is code only behind an empty line.", "quantifier": "all paragraphs, all indented lines", "why_tests_cant": "The texts around and inside the construct are unbounded; the tests of the project have no such document or only single ones.", "anchors": ["gfm/src/lexer.rs:lex_tabs_spaces"]}
{"id": "C106", "title": "A numbered list begins with its number", "statement": "The items of a numbered list are shown with the numbers that they have in the source, beginning with the first; the number may end with a parenthesis instead of a dot.", "quantifier": "all lists", "why_tests_cant": "The texts around and inside the construct are unbounded; the tests of the project have no such document or only single ones.", "anchors": ["gfm/src/lexer.rs:lex_numbers"]}
{"id": "C107", "title": "Constructs inside lines are rendered in all items and headings", "statement": "Emphasis in the items of numbered lists and task lists and in the headings of tables is rendered as emphasis.", "quantifier": "all texts", "why_tests_cant": "The texts around and inside the construct are unbounded; the tests of the project have no such document or only single ones.", "anchors": ["gfm/src/lexer.rs:lex_numbers", "gfm/src/lexer.rs:lex_plus_minus", "gfm/src/lexer.rs:lex_pipes"]}
{"id": "C108", "title": "Variants of tables", "statement": "The bars at the ends of the rows of a table may be left out, an escaped bar in a cell is part of its text, and cells may be empty.", "quantifier": "all tables", "why_tests_cant": "The texts around and inside the construct are unbounded; the tests of the project have no such document or only single ones.", "anchors": ["gfm/src/lexer.rs:lex_pipes"]}
{"id": "C109", "title": "Tildes", "statement": "Text between single tildes is struck through, and three tildes open and close a code block like three backticks.", "quantifier": "all texts", "why_tests_cant": "The texts around and inside the construct are unbounded; the tests of the project have no such document or only single ones.", "anchors": ["gfm/src/lexer.rs:lex_tilde"]}
{"id": "C110", "title": "Destinations with parentheses and in angle brackets", "statement": "A destination may contain balanced parentheses, or stand in angle brackets, which are not part of it.", "quantifier": "all destinations", "why_tests_cant": "The texts around and inside the construct are unbounded; the tests of the project have no such document or only single ones.", "anchors": ["gfm/src/lexer.rs:lex_links"]}
{"id": "C111", "title": "The items of task lists may begin with any bullet", "statement": "Lines \"* [ ] text\" are items of a task list like lines that begin with a hyphen or a plus sign.", "quantifier": "all texts", "why_tests_cant": "The texts around and inside the construct are unbounded; the tests of the project have no such document or only single ones.", "anchors": ["gfm/src/lexer.rs:lex_asterisk_underscore", "gfm/src/lexer.rs:lex_plus_minus"]}
{"id": "C112", "title": "Only hyphens, asterisks and underscores make a rule", "statement": "A line of other signs, such as plus signs or signs of equality, is text.", "quantifier": "all lines of plus signs and hyphens, of signs of equality", "why_tests_cant": "The texts around and inside the construct are unbounded; the tests of the project have no such document or only single ones.", "anchors": ["gfm/src/lexer.rs:lex_plus_minus"]}
{"id": "C113", "title": "The messages of the program are not shown", "statement": "What is shown of a document contains no text of the program itself (such as the messages of its errors).", "quantifier": "all documents", "why_tests_cant": "The texts around and inside the construct are unbounded; the tests of the project have no such document or only single ones.", "anchors": ["gfm/src/lexer.rs:lex_images"]}
{"id": "C114", "title": "A line of text behind an item or a quotation continues it", "statement": "A line of text directly behind a list item or a quoted line is part of the paragraph in this item or quotation.", "quantifier": "all lists and quotations, all texts", "why_tests_cant": "The texts around and inside the construct are unbounded; the tests of the project have no such document or only single ones.", "anchors": ["gfm/src/lexer.rs:lex_numbers", "gfm/src/lexer.rs:lex_plus_minus", "gfm/src/lexer.rs:lex_blockquotes"]}
{"id": "C115", "title": "A backslash at the end of a line is a line break", "statement": "A backslash at the end of a line inside a paragraph is shown as a line break.", "quantifier": "all texts", "why_tests_cant": "The texts around and inside the construct are unbounded; the tests of the project have no such document or only single ones.", "anchors": ["gfm/src/lexer.rs:lex_escaped_character"]}
{"id": "C116", "title": "The browser opens the page that was written", "statement": "In every directory the page that the browser opens and prints for the PDF is the tmp.html that smd has just written.", "quantifier": "all directories, file systems, schedules of failing calls", "why_tests_cant": "Tests run in one directory; names with characters that mean something in a url are unbounded.", "anchors": ["smd-core/src/browser.rs:33-35", "smd-core/src/convert.rs"]}
{"id": "C117", "title": "The HTML output is a whole document", "statement": "The HTML that smd writes to a file is a whole HTML document, with a document type and a head that states the encoding.", "quantifier": "all documents", "why_tests_cant": "The tests compare fragments for single documents; that no input at all gives a document is a statement about all.", "anchors": ["gfm/src/lib.rs:render", "smd-core/src/convert.rs"]}
{"id": "C118", "title": "The message of the tag lists the commits of the release", "statement": "The message of the tag that release.sh makes lists every commit since the tag before it once, under the heading of its kind.", "quantifier": "all repositories, tags and messages of commits", "why_tests_cant": "Messages and histories are unbounded; the script makes a signed tag and cannot be tried out without making a release.", "anchors": ["release.sh:26-37", ".cliff/detailed.toml"]}
{"id": "C119", "title": "The message of the tag and the changelog agree", "statement": "The message of the tag lists the commits that CHANGELOG.md lists for this release in the tagged commit.", "quantifier": "all repositories and tags", "why_tests_cant": "Holds or fails for every history; the script makes a signed tag and cannot be tried out without making a release.", "anchors": ["release.sh:22", "release.sh:35-37"]}
{"id": "C120", "title": "The npm package of a platform says what it is for", "statement": "For every platform the workflow writes a package.json that is valid JSON and has the name the base package asks for, the version of the release, and the platform and processor as node calls them.", "quantifier": "all tags, all builds of the matrix", "why_tests_cant": "The file is made only in a release, from a template with the name of the tag; a tag that breaks it must be looked for.", "anchors": ["npm/package.json.tmpl", ".github/workflows/release.yaml:247-264"]}
{"id": "C121", "title": "npm installs a program that runs", "statement": "On every system npm installs of the optional dependencies exactly the package for this system, and the program in it runs there.", "quantifier": "all versions, all systems", "why_tests_cant": "The tests run on one system; the packages exist only after a release.", "anchors": ["npm/package.json.tmpl:22-27", ".github/workflows/release.yaml:53-150", ".github/workflows/release.yaml:265-268"]}
{"id": "C122", "title": "Pre-releases are not offered as the latest version", "statement": "Those who ask for no particular version get the last one that is no pre-release, on GitHub, from npm and from Homebrew.", "quantifier": "all sequences of releases of all versions, all places", "why_tests_cant": "It depends on all the releases before, and on what is in the name of a tag; the workflow runs only for a release.", "anchors": [".github/workflows/release.yaml:37-45", ".github/workflows/release.yaml:231-240", ".github/workflows/release.yaml:332-336", ".github/workflows/release.yaml:497"]}
{"id": "C123", "title": "An object that is stored is decoded again", "statement": "What encode_to_string and write_to_file store, decode_from_file gives back, or an error is reported.", "quantifier": "all types with inverse implementations of the traits, all objects, file systems, paths and outcomes of the system calls", "why_tests_cant": "The tests use one object, and no test makes a write short or a call fail.", "anchors": ["smd-core/src/fs.rs:18-26", "smd-core/src/fs.rs:85-119", "smd-core/src/fs.rs:43-63"]}
{"id": "C124", "title": "The tests of smd-core and smd pass and clean up", "statement": "The tests of files, browser, errors, configuration and arguments pass on every machine, and leave the files as they were.", "quantifier": "all file systems, environments and home directories, all outcomes of the system calls", "why_tests_cant": "A test says nothing about the machines on which it is not run.", "anchors": ["smd-core/src/fs.rs:121-218", "smd-core/src/browser.rs:81-121", "smd-core/src/error.rs:46-74", "smd-core/src/config.rs:90-144", "smd/src/args.rs:121-138"]}
{"id": "C125", "title": "Nothing that smd writes or that is built gets into a release", "statement": "The commit of a release has no output of smd, no page it prints from and nothing that cargo, yarn, maturin or Python built, unless it was in the commit before.", "quantifier": "all documents, directories, working trees, histories, tags and outcomes of the commands", "why_tests_cant": "release.sh and .gitignore have no tests, and whether a file is ignored depends on every pattern of three files and on where it is.", "anchors": [".gitignore:1-101", "npm/smd/.gitignore:1-133", "pypi/.gitignore:1-5", "release.sh:23", "smd/src/lib.rs:38-49", "smd-core/src/convert.rs:33"]}
{"id": "C126", "title": "The commit of a release has exactly the files of the project", "statement": "Files that do not belong to the project, like those a test left, are not in the commit of a release, and new files of the project are.", "quantifier": "all working trees, histories, tags and outcomes of the commands, all paths", "why_tests_cant": "No test makes a release; a file that is silently missing or added shows only in the repository.", "anchors": [".gitignore:1-101", "release.sh:23", "smd-core/src/fs.rs:121-218"]}
{"id": "C127", "title": "The npm package smd is published with the files it names, and starts smd", "statement": "The job publish-npm publishes a package that has every file package.json names (main, module, types, bin, exports), and the program in it starts the smd of the package of the platform.", "quantifier": "all states of the repository, configurations of tsup and outcomes of the commands; all versions, builds and systems", "why_tests_cant": "The job runs only when a release is made, and what it publishes depends on files that are not in the repository.", "anchors": [".github/workflows/release.yaml:310-338", "npm/smd/package.json:5-33", "npm/smd/src/getExePath.ts:11-34", "npm/smd/src/cli.ts:1-12"]}
{"id": "C128", "title": "The versions of the releases are versions of the Python package, in the same order", "statement": "Every version of SemVer with which a release is made is read as a version of the Python package and taken by PyPI; different versions stay different, and their order is that of SemVer.", "quantifier": "all versions: all numbers, all words for pre-releases, all texts behind the hyphen or with build metadata; all outcomes of the commands of the workflow", "why_tests_cant": "There are infinitely many versions and pairs of versions, and the wheels are built only when a release is made.", "anchors": [".github/workflows/release.yaml:274-308", ".github/workflows/release.yaml:341-361", "pypi/pyproject.toml:1-19", "release.sh:14-19"]}
{"id": "C129", "title": "Tabs and spaces between two words only separate them", "statement": "White space inside a line of a paragraph, of whatever length and kind, is shown like one space and begins no block.", "quantifier": "all ordinary texts before and behind, all paragraphs around them, all runs of white space", "why_tests_cant": "The texts around the white space and the runs are unbounded.", "anchors": ["gfm/src/lexer.rs:75-80", "gfm/src/lexer.rs:265-331", "gfm/src/lib.rs:69-139"]}
{"id": "C130", "title": "A byte order mark in front of a document makes no difference", "statement": "A file that begins with the byte order mark of UTF-8 (as editors on Windows write it) is converted to the page of the document behind the mark.", "quantifier": "all documents, all files that begin with the three bytes, all runs of the program", "why_tests_cant": "The mark stands in front of infinitely many documents; every test shows one of them, and that the mark appears on the page cannot be seen in a browser.", "anchors": ["smd-core/src/fs.rs:28-40", "smd/src/lib.rs:30-46", "gfm/src/lexer.rs:191-195", "gfm/src/lib.rs:69-139"]}
{"id": "C131", "title": "Every character of the page is from the document or belongs to the tags", "statement": "A character of the output stands in the document, or is printable ASCII, a tab or a line end, or is the arrow behind a footnote in a document with a bracket. So the renderer invents no control characters, no carriage returns and no characters beyond ASCII.", "quantifier": "all documents, all characters, through all levels of nested rendering", "why_tests_cant": "There are infinitely many documents and over a million characters; that none of them is ever invented is a statement about all of both.", "anchors": ["gfm/src/lib.rs:52-589", "gfm/src/lexer.rs:48-201", "gfm/src/token.rs:96-280"]}
{"id": "C132", "title": "NUL is not on the page", "statement": "For reasons of security the character U+0000 of a document is replaced (CommonMark, 2.3) and does not reach the output.", "quantifier": "all documents with and without the character", "why_tests_cant": "The character may stand at any place of infinitely many documents, and browsers do not show it.", "anchors": ["gfm/src/lexer.rs:191-195", "gfm/src/lib.rs:142-187", "gfm/src/lib.rs:572-589"]}
{"id": "C133", "title": "The link behind a footnote", "statement": "The link behind a footnote leads back to the reference of that footnote: exactly one element of the page has the id it leads to.", "quantifier": "every note and all references to it", "why_tests_cant": "The names and texts of notes and references are arbitrary, and whether a link leads somewhere is seen only by following it.", "anchors": ["gfm/src/lib.rs:142-187", "gfm/src/lib.rs:547-566"]}
{"id": "C134", "title": "References to footnotes that do not exist", "statement": "A reference in square brackets and a caret for which the document has no footnote is shown as text (as on GitHub) and is no link to nowhere.", "quantifier": "every paragraph and every name of a note", "why_tests_cant": "The names and texts of notes and references are arbitrary, and whether a link leads somewhere is seen only by following it.", "anchors": ["gfm/src/lib.rs:142-187", "gfm/src/lexer.rs:lex_links"]}
{"id": "C135", "title": "Markdown in footnotes", "statement": "The text of a footnote is Markdown like any other: emphasis, code, links and images in it are shown as such.", "quantifier": "every text of a footnote", "why_tests_cant": "A footnote may contain any text; a test suite only visits finitely many of them.", "anchors": ["gfm/src/lib.rs:547-566", "gfm/src/lexer.rs:lex_links"]}
{"id": "C136", "title": "A footnote begins with its line", "statement": "A footnote is defined at the beginning of a line only; behind other text on the line, a name in square brackets with a caret and a colon is a reference followed by text, and nothing of the line leaves its paragraph.", "quantifier": "every text in front of the brackets, every name and every rest of the line", "why_tests_cant": "All three parts are arbitrary, and the text that is moved is still on the page.", "anchors": ["gfm/src/lexer.rs:683-733", "gfm/src/lib.rs:547-566"]}
{"id": "C137", "title": "What is not recognised as a footnote is text", "statement": "A line that begins like a footnote but is none, because its name has blanks or because the next line is not indented as it should be, is shown as text: escaped and complete.", "quantifier": "every name, text and indentation of this kind", "why_tests_cant": "A test has to think of the malformed notes; the text in them is arbitrary, and what is not escaped may be any script.", "anchors": ["gfm/src/lexer.rs:683-733", "gfm/src/lib.rs:155-181"]}
{"id": "C138", "title": "Which footnotes are listed", "statement": "The footnotes to which the text refers are listed, each name once (as on GitHub); a footnote to which nothing refers is not.", "quantifier": "every sequence of footnote definitions", "why_tests_cant": "There are infinitely many sequences of definitions, with any repetition of names.", "anchors": ["gfm/src/lib.rs:547-566", "gfm/src/lib.rs:parse"]}
