C01 | partial | Full statement refuted (C01_no_panic_refuted), also behind all prose; proved for all documents whose headings have no custom id or end in it.
C02 | partial | Full statement refuted; proved for all documents whose details blocks are closed and nested properly, and all with at most one; more generally by the number of tags behind each tag. For all documents the outcome is decided at depth 310 + 10 n (C02_outcome_decided).
C03 | partial | Full statement refuted (raw text before a footnote reference, autolink text, double quote in a url); proved for all documents whose destinations and autolinks have no "<" and double quote and that do not have both "<" and "[^", see harmless in Html.v.
C04 | partial | True of every accepted link destination; refuted for image sources (two schemes, or a control character in front); whole documents proved for the class of C03, including images with relative or "://" sources.
C05 | partial | Refuted by destinations with one @; proved for destinations without @, and documents of the class of C03 without @ in destinations and autolinks.
C06 | partial | Completeness proved; losslessness refuted for | and ~ (their references name other characters) and proved for all other texts; exact decoding for all texts.
C07 | partial | For all texts and all sequences of operations the byte iterator answers what the character model answers and stays on character boundaries; peek_until_end on an empty text subtracts below zero (refuted).
C08 | partial | Proved for every ordinary text (no character with a Markdown meaning); refuted for words with a hyphen, which become lists.
C09 | partial | Refuted for every ordinary text (a space makes no difference to the output); kept inside emphasis.
C10 | partial | Proved for ordinary paragraphs separated by any number of empty lines; refuted for blank lines with a space or with Windows line ends.
C11 | partial | Proved for all levels, ordinary texts, closing runs and contexts up to the spaces between words, which are lost (refuted for all).
C12 | proved | For every run of seven or more hashes among ordinary text.
C13 | partial | Refuted for every heading with a code span or a custom id; proved for headings with any other inline construct among ordinary text.
C14 | proved | For all texts without asterisks and underscores (of any other content) among ordinary text; decoding exact for texts without bar, tilde and backslash (see C06).
C15 | partial | Strikethrough proved; unmatched tildes strike nothing (proved), but a different character is shown for them (refuted).
C16 | partial | Proved for all code spans among ordinary text; backslashes in the code are lost (refuted).
C17 | partial | Refuted for every fenced code block: nothing is shown. Indented code is shown.
C18 | proved | For all non-empty lists of items with arbitrary one-line texts; text after the list changes nothing about the items (but see C30 for the end tag).
C19 | partial | Refuted for every number of two or more digits.
C20 | proved | For all non-empty lists of items of ordinary text with any inline constructs.
C21 | partial | Refuted for every nested item: it leaves no trace.
C22 | proved | For all non-empty lists of task items with arbitrary one-line texts.
C23 | proved | For all table sizes, alignments and ordinary cells; also for cells with emphasis and escapes.
C24 | proved | For all blocks of lines with bars that are no table (without footnote references).
C25 | partial | Proved for up to 255 levels and any sequence of quoted ordinary lines; refuted for 256 and more (number modulo 256).
C26 | partial | Refuted for every ordinary line with a character that is escaped (escaped twice); true exactly for the others.
C27 | partial | Proved for every body described by the grammar, in particular paragraphs; refuted as to the end of the element (stray text).
C28 | partial | Listing and order proved for all sequences of paragraphs and definitions; ids refuted (all the same), and the link of a reference refuted: it leads to an id which nothing has, unless the note is called 1.
C29 | proved | For all documents that render.
C30 | partial | For documents without leaks (no "<" in destinations, titles and autolinks, and not both "<" and "[^") proved for all elements but ul; refuted for ul by a task list behind a bullet list in a numbered list; proved for ul in documents without task boxes.
C31 | partial | Proved for all punctuation but the backslash itself, of which nothing is shown (refuted).
C32 | partial | Refuted for every ordinary document that ends in a backslash.
C33 | partial | Refuted for every '<' without '>' behind it; proved for '<...>' that is not an autolink.
C34 | partial | Proved for urls without scheme; refuted for all urls with one.
C35 | partial | Proved for absolute urls (links and autolinks) and mail autolinks; refuted for relative urls and links with a title.
C36 | partial | Proved for dashes, four or more asterisks or underscores, and asterisks before a blank line; refuted for three underscores and for three asterisks at the end.
C37 | partial | Refuted for every text and number of spaces.
C38 | proved | For every document that is rendered at all: at most 2^35 (1+n)^4 characters, n the number of characters of the source.
C39 | proved | For all sources, ignore lists and fuels.
C40 | partial | Proved for runs without short writes; refuted for all conversions by a short write.
C41 | partial | Refuted: file.write may take less and nobody looks; proved for runs without short writes, HTML and (in directories whose names mean themselves in a url) PDF.
C42 | partial | Refuted: the output is truncated before it is written; proved that it is always the old content or a beginning of the new one.
C43 | partial | Refuted for inputs named .html (HTML) and tmp.html (PDF); proved for inputs that are not the output or the temporary file under any name.
C44 | partial | Refuted for names that differ in the extension; proved: outputs agree exactly if directory and stem do.
C45 | partial | Refuted by an existing tmp.html and by a browser failure; proved for success without a tmp.html, and that no third file ever changes.
C46 | partial | Refuted by a schedule of two processes in one directory; proved for every interleaving of processes that share no written file.
C47 | partial | Refuted by races and by a failing stat; proved for one process and a stat that works. Assumes the TOML reader reads the default text as meant.
C48 | partial | Refuted if stat fails; proved otherwise.
C49 | partial | Order refuted for names that differ in case; proved if no two variables of one setting disagree.
C50 | partial | Refuted: no configuration value changes any run.
C51 | partial | Refuted by panics (101), endless loops and by every RUST_LOG with a word that is no level and no beginning of smd; for all other runs proved, with the exact values of RUST_LOG under which the error is seen.
C52 | proved | For every accepted command line, every RUST_LOG and every record.
C53 | partial | Proved for one thread; refuted for two by a schedule, for all targets of different length.
C54 | partial | Arguments proved to be the documented ones for keys in ASCII; refuted for undefined, and settings cannot be recovered if a value begins with two hyphens.
C55 | partial | Refuted by hyphens in keys; proved for ASCII keys without hyphens, hence for all keys of options.ts.
C56 | partial | Refuted on every platform: it is git-cliff.
C57 | partial | Proved for status 0; refuted for every other status but 1. execa and node are modelled after their documentation.
C58 | proved | For every tidy file system.
C59 | partial | Proved for files that are no symbolic link; refuted for all links into another directory.
C60 | partial | Refuted: no command line shows the version.
C61 | partial | Refuted for all cells of autolinks: the content is shown once per link. Proved for cells of text, emphasis and escapes; exact output for cells with links and code spans (C23_table_inline).
C62 | partial | Refuted for every paragraph of ordinary text with references: all show 1. Proved for consecutive references in a line that starts with a bar.
C63 | partial | Refuted by inline code in a paragraph, by a hyphen in a word and by a heading of two images. Proved for documents with nothing that may become code or a list item, if there are no block quotes and no images, or no headings and no backslashes.
C64 | proved | Equivalence with a grammar, for all command lines; clap is modelled after its source.
C65 | proved | For all lists of entries of module names and levels; env_logger is modelled after its source, regular expressions are an arbitrary function.
C66 | partial | Refuted for every object of the type: no command is ever started.
C67 | partial | Refuted for all options and flags, in both orders, and for all flags behind a command.
C68 | partial | Exact effect proved for all files and all tags of versions; refuted for package.json files of one line and for tags with an ampersand. sed is modelled.
C69 | partial | Refuted for all newer versions: the lines of smd-core and gfm lack the mark. Proved for files in which all versions are marked.
C70 | partial | Proved for all versions and all files; refuted for the tag v.
C71 | partial | Refuted for all failures: nothing is looked at.
C72 | proved | For all tags that start the workflow; the tags of all SemVer versions do.
C73 | partial | Refuted for all outcomes: a file is copied that does not exist. Proved if it did; names of packages agree; the Debian package has another name for pre-releases.
C74 | partial | Refuted: it waits for ever, for every content of the index.
C75 | partial | Refuted for all outcomes, and what the jobs do depend on is exact: the filter smd selects no test and the coverage job ends in || true. Proved without the filter.
C76 | partial | Refuted; 71 of the 677 tests of the renderer pass, exactly which is proved, and all end; the tests of the iterator pass.
C77 | proved | Texts of clap_mangen and clap_complete are arbitrary; names of scripts and cargo-deb after their documentation.
C78 | proved | For all documents and all exchanges that leave ASCII, white space and the arrow of footnotes alone; each condition is necessary.
C79 | partial | Refuted for an indented first line with a hash; proved for all documents whose first line is not indented, and that more than one empty line is like one.
C80 | partial | Refuted behind lists, tasks, quotes, code and footnotes and in front of indented lines; proved for all other first parts and all other continuations, and in terms of the text for prose with headings.
C81 | partial | Refuted for a bare hash, open emphasis, rules of asterisks and four spaces at the end; proved for all documents whose last paragraph is prose or a heading, whatever stands before it.
C82 | partial | Refuted: every heading with an id panics, and empty lines separate nothing; proved for all lines of ordinary text and headings without empty lines between them.
C83 | partial | Refuted for changelogs with code spans or quotes, tags with separators and passphrases with dollar signs; proved for all versions, for all changelogs with backslashes in front of these chars, and for all texts without quotes, dollar signs, backquotes and backslashes. The shell is modelled after POSIX, as far as these scripts need it.
C84 | partial | Refuted: crates.io and Homebrew wait for nothing, the packages only for the changelog; proved for the packages of npm and PyPI.
C85 | partial | Refuted: the step for musl is never run; proved that every wheel is built by exactly one step.
C86 | proved | For all documents and fuels: at most 2 + 2n + 6424 n^2, and 2 + 2n + 100 n^2 without > and |, n the number of characters; not counted are the loops of a function over its own text.
C87 | partial | Refuted: list items in each other need a level for every two characters; proved that 310 + 10 n levels are enough, and one for documents without # > - + * _ < |.
C88 | partial | Refuted: messages without a colon are left out, kinds that begin with a word of the list are listed under it, kinds that differ in the case of the first letter get two sections with one heading; proved for all other messages of one line that they are listed once, in order, in the section of their kind.
C89 | partial | Refuted for every link to a commit and between releases: the name of the repository is set to an address; proved that the line of a commit has one link, which ends with its hash.
C90 | partial | Refuted for every marker with a blank behind any text: it begins its block in the middle of the line; proved for arrows that no space follows and for two hyphens.
C91 | partial | Refuted for every line and every underline of at least one sign of equality or three hyphens.
C92 | partial | Refuted for every reference in ordinary text: the reader sees it as it is written.
C93 | partial | Refuted for every label and destination, and for text and label side by side: all of it is shown as text.
C94 | partial | Refuted for all texts in strikethrough, links and strong emphasis: the marks are shown, or begin a list.
C95 | partial | Refuted for every table in which two lines have different numbers of cells: all of it is shown as text.
C96 | partial | Refuted for all words: pairs of underscores emphasise, and a single one emphasises the rest of the document.
C97 | partial | Refuted for every address of ordinary characters: there is no link.
C98 | partial | Proved if every command succeeds and the tag is new; refuted for every repository if only git commit fails (the tag is on the commit before) or only git-cliff fails (the changelog is empty).
C99 | partial | Proved for a clean working tree; refuted for every other file that is new or changed in the working tree: it is committed.
C100 | partial | Refuted for every release: its own commit is missing; proved that the commits before it are divided into releases at the tags, and that the line of each is there if its message is as conventionalcommits.org has it.
C101 | partial | Refuted for every release: the second run makes another commit, and the tag stays on the first; proved that no run moves a tag and that without a tag nothing happens.
C102 | partial | Refuted for every release of a version that Cargo.lock does not yet name: the script does not touch the file.
C103 | partial | Refuted for every mark: all of the rest of the document is shown as it is written, or emphasised, whatever it contains.
C104 | partial | Refuted for all texts: emphasis, strong emphasis, strikethrough and links reach over empty lines.
C105 | partial | Refuted for all paragraphs and lines: a code block begins inside the paragraph and holds all of the rest of the document.
C106 | partial | Refuted for all lists: the numbers do not matter, and numbers with a parenthesis make no list.
C107 | partial | Refuted for all texts: the marks are shown.
C108 | partial | Refuted for all tables of these kinds: they are shown as text, not at all, or with the cells in the wrong columns.
C109 | partial | Refuted for all ordinary texts between runs of tildes other than two: they are shown as text.
C110 | partial | Refuted: the destination ends with the first closing parenthesis, and angle brackets become part of the address.
C111 | partial | Refuted for asterisks, proved for hyphens and plus signs.
C112 | partial | Refuted for plus signs, also among hyphens; proved for signs of equality.
C113 | partial | Refuted for every footnote behind an exclamation mark (and, in C32, for a backslash at the end).
C114 | partial | Refuted for all of them: the line stands outside, in lists the list ends behind its first character.
C115 | partial | Refuted for all texts: nothing is shown.
C116 | partial | Refuted: the path becomes a url without being encoded, so in a directory like C# or a%20b another file is opened (or none); proved which directories are safe, and that the PDF is right in these.
C117 | partial | Refuted for all inputs: no output begins with a document type, html, head or meta; proved with which elements every output begins.
C118 | partial | Proved for all messages as conventionalcommits.org has them, and that others are listed if they begin with a word of the list; refuted: all others leave no trace, and git takes a heading that begins with a number sign for a comment.
C119 | partial | Refuted for every release: its own commit is in the message and not in the changelog.
C120 | partial | Proved for all versions of semver.org and all builds, and for all tags without double quotes, backslashes, dollar signs, backquotes and control chars; refuted: quotes in a tag are lost, so that the package has another version.
C121 | partial | Proved that exactly the package of the system is installed and that its program runs there, but for musl; refuted: on Linux with musl the package is installed and its program needs glibc.
C122 | partial | Proved for the npm package smd and Homebrew, with exactly which versions are taken for pre-releases; refuted: GitHub and the npm packages of the platforms offer every pre-release, and releases whose build is named with a hyphen are held back.
C123 | partial | Refuted with a short write; without one nothing else is decoded, for every type whose traits are inverse; what cannot be serialized is refused and touches no file; the objects of the tests exactly without a colon.
C124 | partial | Refuted: files of the same names are lost, a page is left, an environment variable and a linked home directory fail tests; otherwise the tests of files and configuration pass and clean up.
C125 | proved | For all working trees and histories; the three .gitignore files are interpreted, and what they exclude is proved equivalent to a description without patterns.
C126 | partial | Exactly which files are in the commit is proved; refuted: files that tests left are in it, and new files in a directory with the name build are not.
C127 | partial | Refuted: tsup has neither arguments nor a configuration, so the build fails and nothing is published; and the program asks for the packages of git-cliff. Proved when a package would be published, and exactly with which configurations it would be complete.
C128 | partial | Proved for releases and for alpha, beta and rc with a number: read, and in the same order; which build metadata is read. Refuted otherwise: a number alone, post, rev and r are post-releases, dev is before alpha, pre and rc are one word, other words are refused (and stop the release), metadata is refused by PyPI.
C129 | partial | Proved for one to three spaces behind a word that ends in a letter of ASCII; refuted for four spaces, a tab, and two spaces and a tab: the rest of the line is code. Also refuted for five or more spaces: the rest of the line is shown with its markup as written. Other runs of tabs and spaces are not covered.
C130 | partial | Refuted for every document: the page begins with a paragraph that begins with the mark, which no document without a mark has; in front of a heading it is a paragraph of its own. So it is for every successful run on a file that begins with the three bytes. Of paragraphs it is true but for the mark itself.
C131 | proved | Through all levels of nested rendering.
C132 | partial | Proved for documents without the character; refuted for all ordinary paragraphs and headings with it: it is not replaced.
C133 | partial | Proved for a note behind the paragraph with its only reference; refuted for every text with several references to one note: all have the same id.
C134 | partial | Refuted for every paragraph with one reference and no note: there is a link, and nothing it leads to.
C135 | partial | Refuted for every sequence of paragraphs and notes: the text is shown as it is written.
C136 | partial | Refuted for every ordinary text in front of it: the rest of the line is taken out of the paragraph.
C137 | partial | Refuted for all such notes: two characters are lost and the rest is not escaped, so every script can be put on a page.
C138 | partial | Refuted for all documents of notes only: all of them are listed, also those of the same name.
