{
 "claims": [
  {
   "property": "C01",
   "status": "partial",
   "theorems": [
    "C01_C80_behind_prose",
    "C01_no_panic_refuted",
    "C01_misplaced_id_panics",
    "C01_no_panic_partial",
    "C01_no_id_partial",
    "C01_C02_result_partial"
   ],
   "note": "Full statement refuted (C01_no_panic_refuted), also behind all prose; proved for all documents whose headings have no custom id or end in it."
  },
  {
   "property": "C02",
   "status": "partial",
   "theorems": [
    "C02_C80_behind_prose",
    "C02_terminates_refuted",
    "C02_unclosed_details_hang",
    "C02_terminates_partial",
    "C02_nested_partial",
    "C02_single_partial",
    "C01_C02_result_partial",
    "C02_outcome_unique",
    "C02_outcomes_exclusive",
    "C02_outcome_decided",
    "C02_outcome_exists"
   ],
   "note": "Full statement refuted; proved for all documents whose details blocks are closed and nested properly, and all with at most one; more generally by the number of tags behind each tag. For all documents the outcome is decided at depth 310 + 10 n (C02_outcome_decided)."
  },
  {
   "property": "C03",
   "status": "partial",
   "theorems": [
    "C03_raw_text",
    "C03_safe_refuted",
    "C03_autolink_refuted",
    "C03_quote_refuted",
    "C03_safe_partial",
    "C03_classes"
   ],
   "note": "Full statement refuted (raw text before a footnote reference, autolink text, double quote in a url); proved for all documents whose destinations and autolinks have no \"<\" and double quote and that do not have both \"<\" and \"[^\", see harmless in Html.v."
  },
  {
   "property": "C04",
   "status": "partial",
   "theorems": [
    "C04_link_destinations",
    "C04_images_refuted",
    "C04_control_refuted",
    "C04_no_javascript_partial",
    "C04_no_javascript_src_partial"
   ],
   "note": "True of every accepted link destination; refuted for image sources (two schemes, or a control character in front); whole documents proved for the class of C03, including images with relative or \"://\" sources."
  },
  {
   "property": "C05",
   "status": "partial",
   "theorems": [
    "C05_link_destinations_partial",
    "C05_data_refuted",
    "C05_data_partial"
   ],
   "note": "Refuted by destinations with one @; proved for destinations without @, and documents of the class of C03 without @ in destinations and autolinks."
  },
  {
   "property": "C06",
   "status": "partial",
   "theorems": [
    "C06_complete",
    "C06_lossless_refuted",
    "C06_decoded",
    "C06_lossless_partial"
   ],
   "note": "Completeness proved; losslessness refuted for | and ~ (their references name other characters) and proved for all other texts; exact decoding for all texts."
  },
  {
   "property": "C07",
   "status": "partial",
   "theorems": [
    "C07_iterator_partial",
    "C07_boundary_partial",
    "C07_peek_until_end_refuted"
   ],
   "note": "For all texts and all sequences of operations the byte iterator answers what the character model answers and stays on character boundaries; peek_until_end on an empty text subtracts below zero (refuted)."
  },
  {
   "property": "C08",
   "status": "partial",
   "theorems": [
    "C08_paragraph_partial",
    "C08_blank_document_partial",
    "C08_hyphen_refuted"
   ],
   "note": "Proved for every ordinary text (no character with a Markdown meaning); refuted for words with a hyphen, which become lists."
  },
  {
   "property": "C09",
   "status": "partial",
   "theorems": [
    "C09_words_refuted",
    "C09_emphasis_partial"
   ],
   "note": "Refuted for every ordinary text (a space makes no difference to the output); kept inside emphasis."
  },
  {
   "property": "C10",
   "status": "partial",
   "theorems": [
    "C10_paragraphs_partial",
    "C10_inline_partial",
    "C10_blank_line_refuted"
   ],
   "note": "Proved for ordinary paragraphs separated by any number of empty lines; refuted for blank lines with a space or with Windows line ends."
  },
  {
   "property": "C11",
   "status": "partial",
   "theorems": [
    "C11_heading_partial",
    "C11_heading_text",
    "C11_spaces_refuted"
   ],
   "note": "Proved for all levels, ordinary texts, closing runs and contexts up to the spaces between words, which are lost (refuted for all)."
  },
  {
   "property": "C12",
   "status": "proved",
   "theorems": [
    "C12_seven_hashes"
   ],
   "note": "For every run of seven or more hashes among ordinary text."
  },
  {
   "property": "C13",
   "status": "partial",
   "theorems": [
    "C13_code_refuted",
    "C13_custom_id_refuted",
    "C13_heading_inline_partial"
   ],
   "note": "Refuted for every heading with a code span or a custom id; proved for headings with any other inline construct among ordinary text."
  },
  {
   "property": "C14",
   "status": "proved",
   "theorems": [
    "C14_emphasis",
    "C14_mixed_marks"
   ],
   "note": "For all texts without asterisks and underscores (of any other content) among ordinary text; decoding exact for texts without bar, tilde and backslash (see C06)."
  },
  {
   "property": "C15",
   "status": "partial",
   "theorems": [
    "C15_strike",
    "C15_tildes_partial",
    "C15_unmatched_partial",
    "C15_unclosed_partial",
    "C15_tilde_refuted"
   ],
   "note": "Strikethrough proved; unmatched tildes strike nothing (proved), but a different character is shown for them (refuted)."
  },
  {
   "property": "C16",
   "status": "partial",
   "theorems": [
    "C16_code_partial",
    "C16_code_block_partial",
    "C16_backslash_refuted"
   ],
   "note": "Proved for all code spans among ordinary text; backslashes in the code are lost (refuted)."
  },
  {
   "property": "C17",
   "status": "partial",
   "theorems": [
    "C17_fence_refuted",
    "C17_indented_partial"
   ],
   "note": "Refuted for every fenced code block: nothing is shown. Indented code is shown."
  },
  {
   "property": "C18",
   "status": "proved",
   "theorems": [
    "C18_ordered_list",
    "C18_ordered_list_then_text"
   ],
   "note": "For all non-empty lists of items with arbitrary one-line texts; text after the list changes nothing about the items (but see C30 for the end tag)."
  },
  {
   "property": "C19",
   "status": "partial",
   "theorems": [
    "C19_long_number_refuted"
   ],
   "note": "Refuted for every number of two or more digits."
  },
  {
   "property": "C20",
   "status": "proved",
   "theorems": [
    "C20_bullet_list",
    "C20_bullet_list_then_text"
   ],
   "note": "For all non-empty lists of items of ordinary text with any inline constructs."
  },
  {
   "property": "C21",
   "status": "partial",
   "theorems": [
    "C21_nested_refuted"
   ],
   "note": "Refuted for every nested item: it leaves no trace."
  },
  {
   "property": "C22",
   "status": "proved",
   "theorems": [
    "C22_task_list",
    "C22_task_list_then_text"
   ],
   "note": "For all non-empty lists of task items with arbitrary one-line texts."
  },
  {
   "property": "C23",
   "status": "proved",
   "theorems": [
    "C23_table",
    "C23_table_inline"
   ],
   "note": "For all table sizes, alignments and ordinary cells; also for cells with emphasis and escapes."
  },
  {
   "property": "C24",
   "status": "proved",
   "theorems": [
    "C24_malformed_table"
   ],
   "note": "For all blocks of lines with bars that are no table (without footnote references)."
  },
  {
   "property": "C25",
   "status": "partial",
   "theorems": [
    "C25_nesting_partial",
    "C25_deep_refuted"
   ],
   "note": "Proved for up to 255 levels and any sequence of quoted ordinary lines; refuted for 256 and more (number modulo 256)."
  },
  {
   "property": "C26",
   "status": "partial",
   "theorems": [
    "C26_escaped_twice_refuted"
   ],
   "note": "Refuted for every ordinary line with a character that is escaped (escaped twice); true exactly for the others."
  },
  {
   "property": "C27",
   "status": "partial",
   "theorems": [
    "C27_details_partial",
    "C27_details_paragraphs_partial",
    "C27_stray_text_refuted"
   ],
   "note": "Proved for every body described by the grammar, in particular paragraphs; refuted as to the end of the element (stray text)."
  },
  {
   "property": "C28",
   "status": "partial",
   "theorems": [
    "C28_footnotes_partial",
    "C28_ids_refuted",
    "C28_ids_partial",
    "C28_link_refuted"
   ],
   "note": "Listing and order proved for all sequences of paragraphs and definitions; ids refuted (all the same), and the link of a reference refuted: it leads to an id which nothing has, unless the note is called 1."
  },
  {
   "property": "C29",
   "status": "proved",
   "theorems": [
    "C29_output_ended"
   ],
   "note": "For all documents that render."
  },
  {
   "property": "C30",
   "status": "partial",
   "theorems": [
    "C30_balanced_refuted",
    "C30_balanced_partial",
    "C30_ul_partial",
    "C30_ul_at_most_partial"
   ],
   "note": "For documents without leaks (no \"<\" in destinations, titles and autolinks, and not both \"<\" and \"[^\") proved for all elements but ul; refuted for ul by a task list behind a bullet list in a numbered list; proved for ul in documents without task boxes."
  },
  {
   "property": "C31",
   "status": "partial",
   "theorems": [
    "C31_escape_partial",
    "C31_all_escaped_partial",
    "C31_backslash_refuted"
   ],
   "note": "Proved for all punctuation but the backslash itself, of which nothing is shown (refuted)."
  },
  {
   "property": "C32",
   "status": "partial",
   "theorems": [
    "C32_trailing_backslash_refuted",
    "C32_backslash_newline_partial"
   ],
   "note": "Refuted for every ordinary document that ends in a backslash."
  },
  {
   "property": "C33",
   "status": "partial",
   "theorems": [
    "C33_lt_refuted",
    "C33_angle_partial"
   ],
   "note": "Refuted for every '<' without '>' behind it; proved for '<...>' that is not an autolink."
  },
  {
   "property": "C34",
   "status": "partial",
   "theorems": [
    "C34_image_partial",
    "C34_scheme_refuted"
   ],
   "note": "Proved for urls without scheme; refuted for all urls with one."
  },
  {
   "property": "C35",
   "status": "partial",
   "theorems": [
    "C35_link_partial",
    "C35_autolink_partial",
    "C35_mail_autolink_partial",
    "C35_relative_refuted",
    "C35_title_refuted"
   ],
   "note": "Proved for absolute urls (links and autolinks) and mail autolinks; refuted for relative urls and links with a title."
  },
  {
   "property": "C36",
   "status": "partial",
   "theorems": [
    "C36_rule_partial",
    "C36_stars_partial",
    "C36_three_refuted"
   ],
   "note": "Proved for dashes, four or more asterisks or underscores, and asterisks before a blank line; refuted for three underscores and for three asterisks at the end."
  },
  {
   "property": "C37",
   "status": "partial",
   "theorems": [
    "C37_hard_break_refuted"
   ],
   "note": "Refuted for every text and number of spaces."
  },
  {
   "property": "C38",
   "status": "proved",
   "theorems": [
    "C38_output_bounded",
    "C38_bytes_bounded",
    "C38_not_linear",
    "C38_at_least_quadratic"
   ],
   "note": "For every document that is rendered at all: at most 2^35 (1+n)^4 characters, n the number of characters of the source."
  },
  {
   "property": "C39",
   "status": "proved",
   "theorems": [
    "C39_pieces",
    "C39_token_count"
   ],
   "note": "For all sources, ignore lists and fuels."
  },
  {
   "property": "C40",
   "status": "partial",
   "theorems": [
    "C64_C40_html_partial",
    "C40_C41_written_partial",
    "C40_C41_short_refuted"
   ],
   "note": "Proved for runs without short writes; refuted for all conversions by a short write."
  },
  {
   "property": "C41",
   "status": "partial",
   "theorems": [
    "C40_C41_written_partial",
    "C40_C41_short_refuted",
    "C41_C116_pdf_partial"
   ],
   "note": "Refuted: file.write may take less and nobody looks; proved for runs without short writes, HTML and (in directories whose names mean themselves in a url) PDF."
  },
  {
   "property": "C42",
   "status": "partial",
   "theorems": [
    "C42_crash_refuted",
    "C42_html_partial",
    "C42_pdf_partial"
   ],
   "note": "Refuted: the output is truncated before it is written; proved that it is always the old content or a beginning of the new one."
  },
  {
   "property": "C43",
   "status": "partial",
   "theorems": [
    "C43_html_refuted",
    "C43_tmp_refuted",
    "C43_html_partial",
    "C43_pdf_partial"
   ],
   "note": "Refuted for inputs named .html (HTML) and tmp.html (PDF); proved for inputs that are not the output or the temporary file under any name."
  },
  {
   "property": "C44",
   "status": "partial",
   "theorems": [
    "C44_collision_refuted",
    "C44_exactly_partial",
    "C44_same_extension_partial"
   ],
   "note": "Refuted for names that differ in the extension; proved: outputs agree exactly if directory and stem do."
  },
  {
   "property": "C45",
   "status": "partial",
   "theorems": [
    "C45_clobbered_refuted",
    "C45_leak_refuted",
    "C45_success_partial",
    "C45_gone_partial",
    "C45_others_partial"
   ],
   "note": "Refuted by an existing tmp.html and by a browser failure; proved for success without a tmp.html, and that no third file ever changes."
  },
  {
   "property": "C46",
   "status": "partial",
   "theorems": [
    "C46_race_refuted",
    "C46_apart_partial"
   ],
   "note": "Refuted by a schedule of two processes in one directory; proved for every interleaving of processes that share no written file."
  },
  {
   "property": "C47",
   "status": "partial",
   "theorems": [
    "C47_present_partial",
    "C47_frame_partial",
    "C47_written_partial",
    "C47_race_refuted",
    "C47_lost_refuted",
    "C47_stat_refuted"
   ],
   "note": "Refuted by races and by a failing stat; proved for one process and a stat that works. Assumes the TOML reader reads the default text as meant."
  },
  {
   "property": "C48",
   "status": "partial",
   "theorems": [
    "C48_bad_partial",
    "C48_absent_partial",
    "C48_stat_refuted"
   ],
   "note": "Refuted if stat fails; proved otherwise."
  },
  {
   "property": "C49",
   "status": "partial",
   "theorems": [
    "C49_env_action_partial",
    "C49_file_action_partial",
    "C49_env_keep_partial",
    "C49_file_keep_partial",
    "C49_missing_partial",
    "C49_missing_named_partial",
    "C49_wrong_partial",
    "C49_order_partial",
    "C49_order_refuted"
   ],
   "note": "Order refuted for names that differ in case; proved if no two variables of one setting disagree."
  },
  {
   "property": "C50",
   "status": "partial",
   "theorems": [
    "C50_ignored_refuted"
   ],
   "note": "Refuted: no configuration value changes any run."
  },
  {
   "property": "C51",
   "status": "partial",
   "theorems": [
    "C51_shown_partial",
    "C51_silent_refuted",
    "C51_silent_run_refuted",
    "C51_exit_partial",
    "C51_panic_refuted",
    "C51_endless_refuted"
   ],
   "note": "Refuted by panics (101), endless loops and by every RUST_LOG with a word that is no level and no beginning of smd; for all other runs proved, with the exact values of RUST_LOG under which the error is seen."
  },
  {
   "property": "C52",
   "status": "proved",
   "theorems": [
    "C52_verbosity"
   ],
   "note": "For every accepted command line, every RUST_LOG and every record."
  },
  {
   "property": "C53",
   "status": "partial",
   "theorems": [
    "C53_one_thread_partial",
    "C53_exact_partial",
    "C53_threads_refuted",
    "C53_threads_partial",
    "C53_levels_partial"
   ],
   "note": "Proved for one thread; refuted for two by a schedule, for all targets of different length."
  },
  {
   "property": "C54",
   "status": "partial",
   "theorems": [
    "C54_documented_partial",
    "C54_settings_partial",
    "C54_settings_refuted",
    "C54_undefined_refuted",
    "C54_strings_partial"
   ],
   "note": "Arguments proved to be the documented ones for keys in ASCII; refuted for undefined, and settings cannot be recovered if a value begins with two hyphens."
  },
  {
   "property": "C55",
   "status": "partial",
   "theorems": [
    "C55_collision_refuted",
    "C55_apart_partial",
    "C55_known_partial"
   ],
   "note": "Refuted by hyphens in keys; proved for ASCII keys without hyphens, hence for all keys of options.ts."
  },
  {
   "property": "C56",
   "status": "partial",
   "theorems": [
    "C56_program_refuted"
   ],
   "note": "Refuted on every platform: it is git-cliff."
  },
  {
   "property": "C57",
   "status": "partial",
   "theorems": [
    "C57_zero_partial",
    "C57_status_refuted"
   ],
   "note": "Proved for status 0; refuted for every other status but 1. execa and node are modelled after their documentation."
  },
  {
   "property": "C58",
   "status": "proved",
   "theorems": [
    "C58_canonical",
    "C58_complete",
    "C58_tilde",
    "C58_no_tilde"
   ],
   "note": "For every tidy file system."
  },
  {
   "property": "C59",
   "status": "partial",
   "theorems": [
    "C59_beside_partial",
    "C59_link_refuted"
   ],
   "note": "Proved for files that are no symbolic link; refuted for all links into another directory."
  },
  {
   "property": "C60",
   "status": "partial",
   "theorems": [
    "C60_version_refuted"
   ],
   "note": "Refuted: no command line shows the version."
  },
  {
   "property": "C61",
   "status": "partial",
   "theorems": [
    "C61_links_repeated",
    "C61_once_refuted",
    "C61_text_cells_partial"
   ],
   "note": "Refuted for all cells of autolinks: the content is shown once per link. Proved for cells of text, emphasis and escapes; exact output for cells with links and code spans (C23_table_inline)."
  },
  {
   "property": "C62",
   "status": "partial",
   "theorems": [
    "C62_always_one_refuted",
    "C62_numbered_partial"
   ],
   "note": "Refuted for every paragraph of ordinary text with references: all show 1. Proved for consecutive references in a line that starts with a bar."
  },
  {
   "property": "C63",
   "status": "partial",
   "theorems": [
    "C63_code_refuted",
    "C63_list_refuted",
    "C63_heading_refuted",
    "C63_nested_partial"
   ],
   "note": "Refuted by inline code in a paragraph, by a hyphen in a word and by a heading of two images. Proved for documents with nothing that may become code or a list item, if there are no block quotes and no images, or no headings and no backslashes."
  },
  {
   "property": "C64",
   "status": "proved",
   "theorems": [
    "C64_accepted",
    "C64_help",
    "C64_no_effect",
    "C64_status",
    "C64_C40_html_partial"
   ],
   "note": "Equivalence with a grammar, for all command lines; clap is modelled after its source."
  },
  {
   "property": "C65",
   "status": "proved",
   "theorems": [
    "C65_entries",
    "C65_expression",
    "C65_empty"
   ],
   "note": "For all lists of entries of module names and levels; env_logger is modelled after its source, regular expressions are an arbitrary function."
  },
  {
   "property": "C66",
   "status": "partial",
   "theorems": [
    "C66_options_refuted"
   ],
   "note": "Refuted for every object of the type: no command is ever started."
  },
  {
   "property": "C67",
   "status": "partial",
   "theorems": [
    "C67_usage_refuted",
    "C67_late_flag_refuted"
   ],
   "note": "Refuted for all options and flags, in both orders, and for all flags behind a command."
  },
  {
   "property": "C68",
   "status": "partial",
   "theorems": [
    "C68_exact",
    "C68_one_line_refuted",
    "C68_ampersand_refuted"
   ],
   "note": "Exact effect proved for all files and all tags of versions; refuted for package.json files of one line and for tags with an ampersand. sed is modelled."
  },
  {
   "property": "C69",
   "status": "partial",
   "theorems": [
    "C69_refuted",
    "C69_unmanaged_refuted",
    "C69_managed_partial",
    "C69_precedence",
    "C69_requirement"
   ],
   "note": "Refuted for all newer versions: the lines of smd-core and gfm lack the mark. Proved for files in which all versions are marked."
  },
  {
   "property": "C70",
   "status": "partial",
   "theorems": [
    "C70_again",
    "C70_empty_refuted"
   ],
   "note": "Proved for all versions and all files; refuted for the tag v."
  },
  {
   "property": "C71",
   "status": "partial",
   "theorems": [
    "C71_refuted"
   ],
   "note": "Refuted for all failures: nothing is looked at."
  },
  {
   "property": "C72",
   "status": "proved",
   "theorems": [
    "C72_same_version",
    "C72_versions",
    "C72_every_version"
   ],
   "note": "For all tags that start the workflow; the tags of all SemVer versions do."
  },
  {
   "property": "C73",
   "status": "partial",
   "theorems": [
    "C73_refuted",
    "C73_repo_refuted",
    "C73_partial",
    "C73_packages",
    "C73_debian"
   ],
   "note": "Refuted for all outcomes: a file is copied that does not exist. Proved if it did; names of packages agree; the Debian package has another name for pre-releases."
  },
  {
   "property": "C74",
   "status": "partial",
   "theorems": [
    "C74_refuted"
   ],
   "note": "Refuted: it waits for ever, for every content of the index."
  },
  {
   "property": "C75",
   "status": "partial",
   "theorems": [
    "C75_refuted",
    "C75_exact",
    "C75_no_guard_refuted",
    "C75_filter",
    "C75_unfiltered_partial",
    "C75_results",
    "C75_unfiltered_renderer_partial"
   ],
   "note": "Refuted for all outcomes, and what the jobs do depend on is exact: the filter smd selects no test and the coverage job ends in || true. Proved without the filter."
  },
  {
   "property": "C76",
   "status": "partial",
   "theorems": [
    "C76_refuted",
    "C76_exact_partial",
    "C76_all_end",
    "C76_iterator_partial"
   ],
   "note": "Refuted; 71 of the 677 tests of the renderer pass, exactly which is proved, and all end; the tests of the iterator pass."
  },
  {
   "property": "C77",
   "status": "proved",
   "theorems": [
    "C77_manual",
    "C77_completions",
    "C77_no_directory",
    "C77_package"
   ],
   "note": "Texts of clap_mangen and clap_complete are arbitrary; names of scripts and cargo-deb after their documentation."
  },
  {
   "property": "C78",
   "status": "proved",
   "theorems": [
    "C78_letters_alike"
   ],
   "note": "For all documents and all exchanges that leave ASCII, white space and the arrow of footnotes alone; each condition is necessary."
  },
  {
   "property": "C79",
   "status": "partial",
   "theorems": [
    "C79_lead_partial",
    "C79_number_partial",
    "C79_refuted"
   ],
   "note": "Refuted for an indented first line with a hash; proved for all documents whose first line is not indented, and that more than one empty line is like one."
  },
  {
   "property": "C80",
   "status": "partial",
   "theorems": [
    "C80_sections_partial",
    "C80_prose_partial",
    "C01_C80_behind_prose",
    "C02_C80_behind_prose",
    "C80_many_partial",
    "C80_many_text_partial",
    "C80_refuted"
   ],
   "note": "Refuted behind lists, tasks, quotes, code and footnotes and in front of indented lines; proved for all other first parts and all other continuations, and in terms of the text for prose with headings."
  },
  {
   "property": "C81",
   "status": "partial",
   "theorems": [
    "C81_final_lines_partial",
    "C81_refuted"
   ],
   "note": "Refuted for a bare hash, open emphasis, rules of asterisks and four spaces at the end; proved for all documents whose last paragraph is prose or a heading, whatever stands before it."
  },
  {
   "property": "C82",
   "status": "partial",
   "theorems": [
    "C82_windows_partial",
    "C82_heading_id_refuted"
   ],
   "note": "Refuted: every heading with an id panics, and empty lines separate nothing; proved for all lines of ordinary text and headings without empty lines between them."
  },
  {
   "property": "C83",
   "status": "partial",
   "theorems": [
    "C83_versions",
    "C83_changelog_partial",
    "C83_guarded_partial",
    "C83_passphrase_partial",
    "C83_code_span_refuted",
    "C83_substitution_refuted",
    "C83_quotes_refuted",
    "C83_tag_quotes_refuted",
    "C83_command_refuted",
    "C83_tag_refuted",
    "C83_passphrase_refuted"
   ],
   "note": "Refuted for changelogs with code spans or quotes, tags with separators and passphrases with dollar signs; proved for all versions, for all changelogs with backslashes in front of these chars, and for all texts without quotes, dollar signs, backquotes and backslashes. The shell is modelled after POSIX, as far as these scripts need it."
  },
  {
   "property": "C84",
   "status": "partial",
   "theorems": [
    "C84_base_packages_partial",
    "C84_packages_refuted",
    "C84_crates_refuted",
    "C84_refuted"
   ],
   "note": "Refuted: crates.io and Homebrew wait for nothing, the packages only for the changelog; proved for the packages of npm and PyPI."
  },
  {
   "property": "C85",
   "status": "partial",
   "theorems": [
    "C85_one_step_partial",
    "C85_musl_refuted"
   ],
   "note": "Refuted: the step for musl is never run; proved that every wheel is built by exactly one step."
  },
  {
   "property": "C86",
   "status": "proved",
   "theorems": [
    "C86_counts_the_renderer",
    "C86_work_bounded",
    "C86_work_at_least",
    "C86_work_quadratic"
   ],
   "note": "For all documents and fuels: at most 2 + 2n + 6424 n^2, and 2 + 2n + 100 n^2 without > and |, n the number of characters; not counted are the loops of a function over its own text."
  },
  {
   "property": "C87",
   "status": "partial",
   "theorems": [
    "C87_depth_refuted",
    "C87_depth_needed",
    "C87_depth_linear_partial",
    "C87_depth_flat_partial"
   ],
   "note": "Refuted: list items in each other need a level for every two characters; proved that 310 + 10 n levels are enough, and one for documents without # > - + * _ < |."
  },
  {
   "property": "C88",
   "status": "partial",
   "theorems": [
    "C88_listed_partial",
    "C88_once_partial",
    "C88_left_out_refuted",
    "C88_beginning_refuted",
    "C88_two_sections_refuted"
   ],
   "note": "Refuted: messages without a colon are left out, kinds that begin with a word of the list are listed under it, kinds that differ in the case of the first letter get two sections with one heading; proved for all other messages of one line that they are listed once, in order, in the section of their kind."
  },
  {
   "property": "C89",
   "status": "partial",
   "theorems": [
    "C89_commit_refuted",
    "C89_compare_refuted",
    "C89_one_link_partial"
   ],
   "note": "Refuted for every link to a commit and between releases: the name of the repository is set to an address; proved that the line of a commit has one link, which ends with its hash."
  },
  {
   "property": "C90",
   "status": "partial",
   "theorems": [
    "C90_hash_refuted",
    "C90_quote_refuted",
    "C90_bullet_refuted",
    "C90_number_refuted",
    "C90_arrows_partial",
    "C90_two_hyphens_partial"
   ],
   "note": "Refuted for every marker with a blank behind any text: it begins its block in the middle of the line; proved for arrows that no space follows and for two hyphens."
  },
  {
   "property": "C91",
   "status": "partial",
   "theorems": [
    "C91_equals_refuted",
    "C91_hyphens_refuted"
   ],
   "note": "Refuted for every line and every underline of at least one sign of equality or three hyphens."
  },
  {
   "property": "C92",
   "status": "partial",
   "theorems": [
    "C92_reference_refuted"
   ],
   "note": "Refuted for every reference in ordinary text: the reader sees it as it is written."
  },
  {
   "property": "C93",
   "status": "partial",
   "theorems": [
    "C93_reference_refuted",
    "C93_text_refuted"
   ],
   "note": "Refuted for every label and destination, and for text and label side by side: all of it is shown as text."
  },
  {
   "property": "C94",
   "status": "partial",
   "theorems": [
    "C94_strike_refuted",
    "C94_link_refuted",
    "C94_strong_refuted"
   ],
   "note": "Refuted for all texts in strikethrough, links and strong emphasis: the marks are shown, or begin a list."
  },
  {
   "property": "C95",
   "status": "partial",
   "theorems": [
    "C95_rows_refuted"
   ],
   "note": "Refuted for every table in which two lines have different numbers of cells: all of it is shown as text."
  },
  {
   "property": "C96",
   "status": "partial",
   "theorems": [
    "C96_pair_refuted",
    "C96_single_refuted"
   ],
   "note": "Refuted for all words: pairs of underscores emphasise, and a single one emphasises the rest of the document."
  },
  {
   "property": "C97",
   "status": "partial",
   "theorems": [
    "C97_address_refuted"
   ],
   "note": "Refuted for every address of ordinary characters: there is no link."
  },
  {
   "property": "C98",
   "status": "partial",
   "theorems": [
    "C98_prepared_partial",
    "C98_commit_refuted",
    "C98_cliff_refuted"
   ],
   "note": "Proved if every command succeeds and the tag is new; refuted for every repository if only git commit fails (the tag is on the commit before) or only git-cliff fails (the changelog is empty)."
  },
  {
   "property": "C99",
   "status": "partial",
   "theorems": [
    "C99_clean_partial",
    "C99_dirty_refuted"
   ],
   "note": "Proved for a clean working tree; refuted for every other file that is new or changed in the working tree: it is committed."
  },
  {
   "property": "C100",
   "status": "partial",
   "theorems": [
    "C100_changelog_refuted",
    "C100_every_partial",
    "C100_divided_partial",
    "C100_listed_partial"
   ],
   "note": "Refuted for every release: its own commit is missing; proved that the commits before it are divided into releases at the tags, and that the line of each is there if its message is as conventionalcommits.org has it."
  },
  {
   "property": "C101",
   "status": "partial",
   "theorems": [
    "C101_twice_refuted",
    "C101_tags_partial",
    "C101_no_tag_partial"
   ],
   "note": "Refuted for every release: the second run makes another commit, and the tag stays on the first; proved that no run moves a tag and that without a tag nothing happens."
  },
  {
   "property": "C102",
   "status": "partial",
   "theorems": [
    "C102_lock_refuted"
   ],
   "note": "Refuted for every release of a version that Cargo.lock does not yet name: the script does not touch the file."
  },
  {
   "property": "C103",
   "status": "partial",
   "theorems": [
    "C103_bracket_refuted",
    "C103_strong_refuted",
    "C103_strike_refuted",
    "C103_emphasis_refuted",
    "C103_ticks_refuted",
    "C103_fence_refuted"
   ],
   "note": "Refuted for every mark: all of the rest of the document is shown as it is written, or emphasised, whatever it contains."
  },
  {
   "property": "C104",
   "status": "partial",
   "theorems": [
    "C104_emphasis_refuted",
    "C104_strong_refuted",
    "C104_strike_refuted",
    "C104_link_refuted"
   ],
   "note": "Refuted for all texts: emphasis, strong emphasis, strikethrough and links reach over empty lines."
  },
  {
   "property": "C105",
   "status": "partial",
   "theorems": [
    "C105_indented_refuted"
   ],
   "note": "Refuted for all paragraphs and lines: a code block begins inside the paragraph and holds all of the rest of the document."
  },
  {
   "property": "C106",
   "status": "partial",
   "theorems": [
    "C106_start_refuted",
    "C106_parenthesis_refuted"
   ],
   "note": "Refuted for all lists: the numbers do not matter, and numbers with a parenthesis make no list."
  },
  {
   "property": "C107",
   "status": "partial",
   "theorems": [
    "C107_numbered_refuted",
    "C107_task_refuted",
    "C107_heading_refuted"
   ],
   "note": "Refuted for all texts: the marks are shown."
  },
  {
   "property": "C108",
   "status": "partial",
   "theorems": [
    "C108_bare_refuted",
    "C108_escaped_bar_refuted",
    "C108_empty_cell_refuted",
    "C108_later_rows_refuted"
   ],
   "note": "Refuted for all tables of these kinds: they are shown as text, not at all, or with the cells in the wrong columns."
  },
  {
   "property": "C109",
   "status": "partial",
   "theorems": [
    "C109_tildes_refuted"
   ],
   "note": "Refuted for all ordinary texts between runs of tildes other than two: they are shown as text."
  },
  {
   "property": "C110",
   "status": "partial",
   "theorems": [
    "C110_parentheses_refuted",
    "C110_angle_refuted"
   ],
   "note": "Refuted: the destination ends with the first closing parenthesis, and angle brackets become part of the address."
  },
  {
   "property": "C111",
   "status": "partial",
   "theorems": [
    "C111_star_refuted",
    "C111_hyphen_partial"
   ],
   "note": "Refuted for asterisks, proved for hyphens and plus signs."
  },
  {
   "property": "C112",
   "status": "partial",
   "theorems": [
    "C112_plus_refuted",
    "C112_equals_partial"
   ],
   "note": "Refuted for plus signs, also among hyphens; proved for signs of equality."
  },
  {
   "property": "C113",
   "status": "partial",
   "theorems": [
    "C113_message_refuted"
   ],
   "note": "Refuted for every footnote behind an exclamation mark (and, in C32, for a backslash at the end)."
  },
  {
   "property": "C114",
   "status": "partial",
   "theorems": [
    "C114_quote_refuted",
    "C114_bullet_refuted",
    "C114_numbered_refuted"
   ],
   "note": "Refuted for all of them: the line stands outside, in lists the list ends behind its first character."
  },
  {
   "property": "C115",
   "status": "partial",
   "theorems": [
    "C115_backslash_refuted"
   ],
   "note": "Refuted for all texts: nothing is shown."
  },
  {
   "property": "C116",
   "status": "partial",
   "theorems": [
    "C41_C116_pdf_partial",
    "C116_exact_partial",
    "C116_unsafe_refuted",
    "C116_cut_refuted",
    "C116_coded_refuted",
    "C116_dots_refuted"
   ],
   "note": "Refuted: the path becomes a url without being encoded, so in a directory like C# or a%20b another file is opened (or none); proved which directories are safe, and that the PDF is right in these."
  },
  {
   "property": "C117",
   "status": "partial",
   "theorems": [
    "C117_begins",
    "C117_document_refuted"
   ],
   "note": "Refuted for all inputs: no output begins with a document type, html, head or meta; proved with which elements every output begins."
  },
  {
   "property": "C118",
   "status": "partial",
   "theorems": [
    "C118_listed_partial",
    "C118_words_partial",
    "C118_left_out_refuted",
    "C118_heading_refuted"
   ],
   "note": "Proved for all messages as conventionalcommits.org has them, and that others are listed if they begin with a word of the list; refuted: all others leave no trace, and git takes a heading that begins with a number sign for a comment."
  },
  {
   "property": "C119",
   "status": "partial",
   "theorems": [
    "C119_own_refuted"
   ],
   "note": "Refuted for every release: its own commit is in the message and not in the changelog."
  },
  {
   "property": "C120",
   "status": "partial",
   "theorems": [
    "C120_versions",
    "C120_all",
    "C120_tags_partial",
    "C120_quotes_refuted"
   ],
   "note": "Proved for all versions of semver.org and all builds, and for all tags without double quotes, backslashes, dollar signs, backquotes and control chars; refuted: quotes in a tag are lost, so that the package has another version."
  },
  {
   "property": "C121",
   "status": "partial",
   "theorems": [
    "C121_only",
    "C121_program",
    "C121_runs_partial",
    "C121_musl_refuted"
   ],
   "note": "Proved that exactly the package of the system is installed and that its program runs there, but for musl; refuted: on Linux with musl the package is installed and its program needs glibc."
  },
  {
   "property": "C122",
   "status": "partial",
   "theorems": [
    "C122_taken",
    "C122_latest_partial",
    "C122_build_refuted",
    "C122_pre_refuted"
   ],
   "note": "Proved for the npm package smd and Homebrew, with exactly which versions are taken for pre-releases; refuted: GitHub and the npm packages of the platforms offer every pre-release, and releases whose build is named with a hyphen are held back."
  },
  {
   "property": "C123",
   "status": "partial",
   "theorems": [
    "C123_decoded_partial",
    "C123_refused",
    "C123_short_refuted",
    "C123_struct_partial",
    "C123_within",
    "C123_colon_refuted"
   ],
   "note": "Refuted with a short write; without one nothing else is decoded, for every type whose traits are inverse; what cannot be serialized is refused and touches no file; the objects of the tests exactly without a colon."
  },
  {
   "property": "C124",
   "status": "partial",
   "theorems": [
    "C124_files_partial",
    "C124_lost_refuted",
    "C124_page_refuted",
    "C124_absent",
    "C124_config_partial",
    "C124_environment_refuted",
    "C124_home_partial"
   ],
   "note": "Refuted: files of the same names are lost, a page is left, an environment variable and a linked home directory fail tests; otherwise the tests of files and configuration pass and clean up."
  },
  {
   "property": "C125",
   "status": "proved",
   "theorems": [
    "C125_ignored",
    "C125_outputs",
    "C125_built"
   ],
   "note": "For all working trees and histories; the three .gitignore files are interpreted, and what they exclude is proved equivalent to a description without patterns."
  },
  {
   "property": "C126",
   "status": "partial",
   "theorems": [
    "C126_files_partial",
    "C126_leftovers_refuted",
    "C126_sources_refuted"
   ],
   "note": "Exactly which files are in the commit is proved; refuted: files that tests left are in it, and new files in a directory with the name build are not."
  },
  {
   "property": "C127",
   "status": "partial",
   "theorems": [
    "C127_published_refuted",
    "C127_repository_refuted",
    "C127_configuration",
    "C127_outside",
    "C127_when_partial",
    "C127_contents_partial",
    "C127_complete_partial",
    "C127_started_refuted"
   ],
   "note": "Refuted: tsup has neither arguments nor a configuration, so the build fails and nothing is published; and the program asks for the packages of git-cliff. Proved when a package would be published, and exactly with which configurations it would be complete."
  },
  {
   "property": "C128",
   "status": "partial",
   "theorems": [
    "C128_known_partial",
    "C128_order_partial",
    "C128_words_partial",
    "C128_tag_partial",
    "C128_number_refuted",
    "C128_post_refuted",
    "C128_dev_refuted",
    "C128_candidates_refuted",
    "C128_unknown_refuted",
    "C128_local_partial",
    "C128_metadata_refuted",
    "C128_stops_refuted"
   ],
   "note": "Proved for releases and for alpha, beta and rc with a number: read, and in the same order; which build metadata is read. Refuted otherwise: a number alone, post, rev and r are post-releases, dev is before alpha, pre and rc are one word, other words are refused (and stop the release), metadata is refused by PyPI."
  },
  {
   "property": "C129",
   "status": "partial",
   "theorems": [
    "C129_spaces_partial",
    "C129_code_refuted",
    "C129_many_refuted"
   ],
   "note": "Proved for one to three spaces behind a word that ends in a letter of ASCII; refuted for four spaces, a tab, and two spaces and a tab: the rest of the line is code. Also refuted for five or more spaces: the rest of the line is shown with its markup as written. Other runs of tabs and spaces are not covered."
  },
  {
   "property": "C130",
   "status": "partial",
   "theorems": [
    "C130_shown_refuted",
    "C130_differs_refuted",
    "C130_heading_refuted",
    "C130_paragraph_partial",
    "C130_bytes_refuted",
    "C130_written_refuted"
   ],
   "note": "Refuted for every document: the page begins with a paragraph that begins with the mark, which no document without a mark has; in front of a heading it is a paragraph of its own. So it is for every successful run on a file that begins with the three bytes. Of paragraphs it is true but for the mark itself."
  },
  {
   "property": "C131",
   "status": "proved",
   "theorems": [
    "C131_characters"
   ],
   "note": "Through all levels of nested rendering."
  },
  {
   "property": "C132",
   "status": "partial",
   "theorems": [
    "C132_none_partial",
    "C132_paragraph_refuted",
    "C132_heading_refuted"
   ],
   "note": "Proved for documents without the character; refuted for all ordinary paragraphs and headings with it: it is not replaced."
  },
  {
   "property": "C133",
   "status": "partial",
   "theorems": [
    "C133_back_partial",
    "C133_same_refuted"
   ],
   "note": "Proved for a note behind the paragraph with its only reference; refuted for every text with several references to one note: all have the same id."
  },
  {
   "property": "C134",
   "status": "partial",
   "theorems": [
    "C134_undefined_refuted"
   ],
   "note": "Refuted for every paragraph with one reference and no note: there is a link, and nothing it leads to."
  },
  {
   "property": "C135",
   "status": "partial",
   "theorems": [
    "C135_markup_refuted"
   ],
   "note": "Refuted for every sequence of paragraphs and notes: the text is shown as it is written."
  },
  {
   "property": "C136",
   "status": "partial",
   "theorems": [
    "C136_line_refuted"
   ],
   "note": "Refuted for every ordinary text in front of it: the rest of the line is taken out of the paragraph."
  },
  {
   "property": "C137",
   "status": "partial",
   "theorems": [
    "C137_raw_refuted",
    "C137_script_refuted"
   ],
   "note": "Refuted for all such notes: two characters are lost and the rest is not escaped, so every script can be put on a page."
  },
  {
   "property": "C138",
   "status": "partial",
   "theorems": [
    "C138_listed_refuted"
   ],
   "note": "Refuted for all documents of notes only: all of them are listed, also those of the same name."
  }
 ]
}