(** * Ci: the tests of the repository and the workflow that runs them.

    .github/workflows/main.yaml and the [#[test]] functions of the three crates.  Cargo, libtest and
    GitHub are modelled after their documentation. *)
From Coq Require Import Ascii String.
From Verif Require Import Strings Parser Suite.
Open Scope list_scope.

(** ** Names of tests

    libtest names a test by its path inside the crate. *)
Definition path (e : example) : str := lit "gfm::" ++ module e ++ lit "::" ++ test e.

(** The tests of modules: gfm/src/iter.rs:149-308, smd-core/src/fs.rs:121-218, browser.rs:81-121,
    error.rs:46-74, config.rs:90-144, smd/src/args.rs:121-138.  The last one is the example in the
    comment gfm/src/lib.rs:21, which rustdoc names by its file. *)
Definition unit_tests : list str := map lit
  [ "iter::tests::peek_does_not_advance"; "iter::tests::peek_does_not_advance_utf";
    "iter::tests::modern_standard_arabic_test"; "iter::tests::consume_until_end_consumes_full_string";
    "iter::tests::next_advances_utf_correctly"; "iter::tests::test_slashes";
    "iter::tests::general_iter_test"; "iter::tests::consume_peek_line_test";
    "iter::tests::test_degenerate_newlines"; "iter::tests::test_mixed_chars";
    "fs::tests::test_serialize"; "fs::tests::test_deserialize"; "fs::tests::test_read_to_string";
    "fs::tests::test_encode_to_string"; "fs::tests::test_decode_from_file";
    "browser::tests::test_initialize"; "browser::tests::test_open_file"; "browser::tests::test_print_to_pdf";
    "error::test::throw_parse_error";
    "config::tests::test_default_config"; "config::tests::test_parse_from_toml"; "config::tests::test_invalid_toml";
    "args::tests::verify_cli"; "args::tests::path_tilde_expansion";
    "gfm/src/lib.rs - Parser::render (line 21)" ]%string.

Definition all_tests : list str := map path suite ++ unit_tests.

(** ** [cargo test [FILTER]]

    Runs the tests whose names contain the filter, and fails if one of them fails.  [run t]: the
    test [t] passes. *)
Definition cargo_test (filter_text : str) (run : str -> bool) (tests : list str) : bool :=
  forallb run (filter (contains filter_text) tests).

Section Main.
(** Whether the other commands succeed: [cargo fmt --check], [cargo clippy], building the tests,
    [cargo install cargo-tarpaulin], [cargo tarpaulin] and the upload. *)
Variables fmt clippy builds install tarpaulin upload : bool.

(** main.yaml:25-43, the job [main]: two commands, the first of two parts. *)
Definition main_job (run : str -> bool) : bool :=
  (fmt && clippy) && (builds && cargo_test (lit "smd") run all_tests).

(** main.yaml:2-23, the job [coverage]: [cargo tarpaulin ... || true].  Tarpaulin runs all tests. *)
Definition coverage_job (run : str -> bool) : bool :=
  install && ((tarpaulin && forallb run all_tests) || true) && upload.
End Main.

(** What the tests of the renderer give if [r] is the renderer ([None]: it does not return), and
    [others] are the results of the other tests. *)
Definition results (r : str -> option str) (others : str -> bool) (t : str) : bool :=
  match find (fun e => str_eqb t (path e)) suite with
  | Some e => match r (source e) with Some out => str_eqb out (expected e) | None => false end
  | None => others t
  end.
