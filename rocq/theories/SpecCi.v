(** * SpecCi: the tests of the renderer that pass. *)
From Coq Require Import Ascii String.
From Verif Require Import Strings Parser Suite Ci IterBytes.
Open Scope list_scope.

(** A test passes if the renderer returns the expected html. *)
Definition passes (e : example) : Prop := renders (source e) (expected e).

(** Names of tests, by module. *)
Definition passing : list (str * list str) := map (fun p => (lit (fst p), map lit (snd p)))
  [ ("atx_headings", ["gfm_test_32_simple_atx_headings";
       "gfm_test_37_atx_heading_trailing_whitespace";
       "gfm_test_38_atx_heading_indentation_allowed";
       "gfm_test_41_atx_heading_closing_hash_sequence";
       "gfm_test_42_atx_heading_closing_hash_sequence_length";
       "gfm_test_43_atx_heading_closing_hash_with_spaces";
       "gfm_test_45_atx_heading_closing_hash_without_space";
       "gfm_test_47_atx_heading_interrupted_by_hr";
       "gfm_test_49_atx_heading_empty"]);
    ("autolinks", ["gfm_test_603_simple_autolink";
       "gfm_test_604_autolink_with_query";
       "gfm_test_605_autolink_with_port";
       "gfm_test_606_uppercase_autolink";
       "gfm_test_607_made_up_scheme_autolink";
       "gfm_test_608_made_up_scheme_with_comma";
       "gfm_test_609_relative_autolink";
       "gfm_test_610_localhost_autolink";
       "gfm_test_611_invalid_autolink_with_space";
       "gfm_test_612_invalid_backslash_autolink";
       "gfm_test_613_email_autolink";
       "gfm_test_614_email_autolink_with_plus";
       "gfm_test_615_invalid_email_with_backslash";
       "gfm_test_616_empty_autolink";
       "gfm_test_617_autolink_with_spaces";
       "gfm_test_618_invalid_scheme";
       "gfm_test_619_non_uri_autolink";
       "gfm_test_620_non_autolink_uri";
       "gfm_test_621_non_autolink_email"]);
    ("blank_lines", ["gfm_test_197_blank_lines_ignored"]);
    ("code_spans", ["gfm_test_357_unmatched_backticks_literal";
       "gfm_test_358_unclosed_backticks"]);
    ("emphasis_and_strong_emphasis", ["gfm_test_360_simple_emphasis";
       "gfm_test_364_intraword_emphasis_allowed";
       "gfm_test_365_intraword_numbers";
       "gfm_test_366_simple_emphasis_with_underscore";
       "gfm_test_379_intraword_emphasis";
       "gfm_test_387_strong_emphasis";
       "gfm_test_390_intraword_strong_emphasis";
       "gfm_test_391_strong_emphasis_underscores";
       "gfm_test_405_intraword_strong_emphasis";
       "gfm_test_414_emphasis_across_lines";
       "gfm_test_429_no_empty_emphasis";
       "gfm_test_432_multiline_strong_emphasis";
       "gfm_test_443_no_empty_emphasis_variant";
       "gfm_test_456_emphasis_with_excess_literal_asterisks";
       "gfm_test_468_emphasis_with_excess_literal_underscores";
       "gfm_test_469_emphasis_and_strong_emphasis";
       "gfm_test_471_strong_emphasis_and_nested_emphasis"]);
    ("entity_and_numeric_character_references", ["gfm_test_325_missing_semicolon";
       "gfm_test_326_made_up_entity"]);
    ("hard_line_breaks", ["gfm_test_hard_line_breaks_670";
       "gfm_test_hard_line_breaks_672"]);
    ("list_items", ["gfm_test_253_no_list_items_with_partial_indent"]);
    ("lists", ["gfm_test_286_blank_lines_between_items"]);
    ("paragraphs", ["gfm_test_189_two_simple_paragraphs";
       "gfm_test_191_multiple_blank_lines_between_paragraphs"]);
    ("raw_html", ["gfm_test_raw_html_642_illegal_attribute_names";
       "gfm_test_raw_html_647_illegal_closing_tag_attributes";
       "gfm_test_raw_html_656_backslash_in_quotes"]);
    ("setext_headings", ["gfm_test_67_setext_heading_cannot_be_empty";
       "gfm_test_68_thematic_break_instead_of_setext_heading"]);
    ("tabs", ["gfm_test_1_characters_and_lines_valid_document";
       "gfm_test_2_characters_and_lines_indented_code_block";
       "gfm_test_3_unicode_in_code_block";
       "gfm_test_4_list_with_tab_indentation";
       "gfm_test_8_blank_line_in_code_block"]);
    ("textual_context", ["gfm_test_textual_content_677"]);
    ("thematic_breaks", ["gfm_test_15_equals_signs_in_break";
       "gfm_test_17_thematic_break_with_indentation";
       "gfm_test_20_more_than_three_characters_in_break";
       "gfm_test_26_invalid_mixed_characters_in_thematic_break"]) ]%string.
Definition named (e : example) (l : list (str * list str)) : Prop :=
  exists ns, In (module e, ns) l /\ In (test e) ns.

(** A job tells about the tests: if it succeeds, they all pass. *)
Definition guards (job : (str -> bool) -> bool) : Prop :=
  forall run, job run = true -> forall t, In t all_tests -> run t = true.

(** ** The tests of gfm/src/iter.rs

    A text, what is asked, and the answers that are expected. *)
Record iter_test := { text : str; asked : list op; told : list (option str) }.
Definition it (s : string) (l : list (op * option string)) : iter_test :=
  {| text := rust s; asked := map fst l; told := map (fun p => option_map rust (snd p)) l |}.
Local Notation "o --> a" := (o, Some a%string) (at level 60, only parsing).
Local Notation "o --| " := (o, @None string) (at level 60, only parsing).
Definition is_slash : Utf8.bytes -> bool := str_eqb [c_bslash].
Definition no_space : Utf8.bytes -> bool := fun b => negb (str_eqb [c_sp] b).
Definition iter_tests : list iter_test :=
  [ (* :154 *)
    it "this is some plaintext" [OPeek --> "t"; OPeek --> "t"; ONext --> "t"];
    (* :163 *)
    it "الْأَ" [OPeek --> "ا"; OPeek --> "ا"; ONext --> "ا"];
    (* :172 *)
    it "الْﺦﷺأَ" [OConsumeLine --> "الْﺦﷺأَ"; ONext --|];
    (* :181 *)
    it "this is some plaintext" [OConsumeUntilEnd --> "this is some plaintext"; ONext --|];
    (* :192 *)
    it "اa木b겅c€d𐍈e"
      [ONext --> "ا"; OPeek --> "a"; ONext --> "a"; OPeek --> "木"; ONext --> "木"; ONext --> "b"; OPeek --> "겅";
       ONext --> "겅"; ONext --> "c"; ONext --> "€"; OPeek --> "d"; ONext --> "d"; ONext --> "𐍈"; ONext --> "e"];
    (* :212 *)
    it "¯\\\\\\\\\\¯"
      [OPeek --> "¯"; ONext --> "¯"; OPeek --> "\\"; OConsumeWhile is_slash --> "\\\\\\\\\\"; OPeek --> "¯";
       ONext --> "¯"; ONext --|];
    (* :228 *)
    it "this is some plaintext"
      [OPeek --> "t"; OPeek --> "t"; ONext --> "t"; OConsumeWhile no_space --> "his";
       OConsumeUntilTail (lit "plain") --> " is some plain"; OConsumeUntilEnd --> "text"; ONext --|];
    it "jkfsgbkfgbdklfdsbh gkhsdfbg <details> and more chars"
      [OConsumeUntilTail (lit "<details>") --> "jkfsgbkfgbdklfdsbh gkhsdfbg <details>";
       OConsumeUntilEnd --> " and more chars"; OPeek --|];
    (* :259 *)
    it "this is some plaintext in a line\nAnd a new line with more content"
      [OPeekLine --> "this is some plaintext in a line\n"; OConsumeLine --> "this is some plaintext in a line\n";
       OPeekLine --> "And a new line with more content"; OConsumeLine --> "And a new line with more content";
       OPeekLine --|];
    (* :287 *)
    it "\n\n\n\n\nfoo\n"
      [OPeekLine --> "\n"; OConsumeLine --> "\n"; OConsumeLine --> "\n"; OConsumeLine --> "\n"; OConsumeLine --> "\n";
       OConsumeLine --> "\n"; OConsumeLine --> "foo\n"; OConsumeLine --|];
    (* :301 *)
    it "  - foo\n\n\tbar\n" [OConsumeLine --> "  - foo\n"; OConsumeLine --> "\n"; OConsumeLine --> "\tbar\n"] ].
