(** * PropertiesJobs: the scripts and the jobs of the release workflow (C83-C85). *)
From Coq Require Import Ascii String.
From Verif Require Import Strings Release SpecRelease ReleaseFacts ReleaseProps Shell ShellFacts Jobs JobsFacts.
Open Scope list_scope.

(** ** C83: texts put into scripts stay texts

    [shell script]: the commands bash reads in [script], each with its words; [plain s]: the word
    that is [s]; [tame]: neither double quote nor dollar sign, backquote or backslash. *)
Theorem C83_versions : forall v x, read_version v = Some x ->
  shell (rename v) = Some [map plain [lit "mv"; lit "release/"; lit "smd-" ++ v ++ lit "/"]] /\
  shell (package_deb v) = Some [map plain [lit "cargo-deb"; lit "--deb-revision="; lit "--strip"; lit "-p"; lit "smd"; lit "-v"; lit "-o";
    lit "smd-" ++ v ++ lit ".deb"]] /\
  shell (package_rpm v) = Some [map plain [lit "cargo"; lit "generate-rpm"; lit "-p"; lit "smd"; lit "-o";
    lit "smd-" ++ v ++ lit ".x86_64.rpm"]] /\
  shell (look_up v) = Some [map plain [lit "grep"; lit "-q"; lit """vers"":""" ++ v ++ lit """"]].
Proof. intros v x R. apply version_words. now apply version_released in R as [R _]. Qed.
Print Assumptions C83_versions.
Example C83_versions_ex : exists x, read_version (lit "0.2.0-rc.1") = Some x.
Proof. eexists. vm_compute. reflexivity. Qed.

Theorem C83_changelog_partial : forall content, forallb tame content = true ->
  shell (display_changelog content) = Some [[plain (lit "echo"); plain content]] /\
  (echoes [plain (lit "echo"); plain content] = Some (content ++ [c_nl]) <->
   ~ exists r, r <> [] /\ content = c_minus :: r /\ forall d, In d r -> In d (lit "neE")).
Proof. exact changelog_printed. Qed.
Print Assumptions C83_changelog_partial.

(** With a backslash in front of each of these four chars, every changelog would be one word. *)
Theorem C83_guarded_partial : forall content,
  shell (display_changelog (guard content)) = Some [[plain (lit "echo"); plain content]].
Proof. exact changelog_guarded. Qed.
Print Assumptions C83_guarded_partial.

Theorem C83_passphrase_partial : forall pass, forallb tame pass = true ->
  shell (import_key pass) = Some [[plain (lit "echo"); plain pass]; gpg_import].
Proof. exact passphrase_given. Qed.
Print Assumptions C83_passphrase_partial.

(** C83 as stated is false: the code spans in commit messages are run, ... *)
Theorem C83_code_span_refuted : forall a x b, forallb tame a = true -> ~ In c_tick x -> forallb tame b = true ->
  shell (display_changelog (a ++ [c_tick] ++ x ++ [c_tick] ++ b)) = Some [[plain (lit "echo"); plain a ++ Run x :: plain b]].
Proof. exact changelog_runs. Qed.
Print Assumptions C83_code_span_refuted.
Theorem C83_substitution_refuted : forall a x b, forallb tame a = true -> ~ In c_rpar x -> forallb tame b = true ->
  shell (display_changelog (a ++ [c_dollar; c_lpar] ++ x ++ [c_rpar] ++ b)) = Some [[plain (lit "echo"); plain a ++ Run x :: plain b]].
Proof. exact changelog_substitutes. Qed.
Print Assumptions C83_substitution_refuted.
Example C83_ex :
  forallb tame (lit "## [0.2.0] - Don't panic; it's fixed & done") = true /\
  echo_option (lit "-n") = true /\
  shell (display_changelog (lit "- Escape `rm -r /` in code")) =
    Some [[plain (lit "echo"); plain (lit "- Escape ") ++ Run (lit "rm -r /") :: plain (lit " in code")]].
Proof. exact shell_ex. Qed.

(** ... quotes are lost, in changelogs and in tags, ... *)
Theorem C83_quotes_refuted : forall a x b, forallb tame a = true -> forallb bare x = true -> forallb tame b = true ->
  shell (display_changelog (a ++ [c_quot] ++ x ++ [c_quot] ++ b)) = Some [[plain (lit "echo"); plain (a ++ x ++ b)]].
Proof. exact changelog_quotes. Qed.
Print Assumptions C83_quotes_refuted.

Theorem C83_tag_quotes_refuted : forall a x b, forallb bare a = true -> ~ In c_apos x -> forallb bare b = true ->
  shell (rename (a ++ [c_apos] ++ x ++ [c_apos] ++ b)) = Some [map plain [lit "mv"; lit "release/"; lit "smd-" ++ (a ++ x ++ b) ++ lit "/"]].
Proof. exact tag_quotes. Qed.
Print Assumptions C83_tag_quotes_refuted.
Example C83_quotes_ex :
  shell (display_changelog (lit "Rename ""render"" to ""write""")) = Some [[plain (lit "echo"); plain (lit "Rename render to write")]] /\
  git_tag (lit "v1.0.0'rc'") = true.
Proof. split; reflexivity. Qed.

(** ... every command can be put into a message so that it is one of the script, ... *)
Theorem C83_command_refuted : forall x, x <> [] -> forallb bare x = true ->
  shell (display_changelog (lit """;" ++ x ++ lit ";""")) = Some [[plain (lit "echo"); []]; [plain x]; [[]]].
Proof. exact changelog_injects. Qed.
Print Assumptions C83_command_refuted.
Example C83_command_refuted_ex : forallb bare (lit "./npm/install.sh") = true.
Proof. reflexivity. Qed.

(** ... or into the name of a tag, ... *)
Theorem C83_tag_refuted : exists tag, git_tag tag = true /\ trigger tag = true /\
  shell (rename (release_version tag)) = Some [map plain [lit "mv"; lit "release/"; lit "smd-1.0.0"]; [plain (lit "id")]; [plain (lit "/")]].
Proof. exact tag_injects. Qed.
Print Assumptions C83_tag_refuted.

(** ... and what looks like a parameter in the passphrase is replaced. *)
Theorem C83_passphrase_refuted : forall a b,
  forallb tame a = true -> forallb tame b = true -> starts_with [c_lpar] b = false ->
  shell (import_key (a ++ [c_dollar] ++ b)) = Some [[plain (lit "echo"); plain a ++ Param :: plain b]; gpg_import].
Proof. exact passphrase_expanded. Qed.
Print Assumptions C83_passphrase_refuted.

(** ** C84: a release is published everywhere or nowhere

    [starts ok tag j]: job [j] is started for [tag], when the jobs succeed that [ok] says. *)
Theorem C84_base_packages_partial : forall ok tag, trigger tag = true -> forall j, In j [Npm; Pypi] ->
  (starts ok tag j <-> ok Changelog = true /\ ok Binaries = true).
Proof. exact starts_last. Qed.
Print Assumptions C84_base_packages_partial.

Theorem C84_packages_refuted : forall ok tag, trigger tag = true -> forall j, In j [Binaries; Deb; Rpm] ->
  (starts ok tag j <-> ok Changelog = true).
Proof. exact starts_packages. Qed.
Print Assumptions C84_packages_refuted.

Theorem C84_crates_refuted : forall ok tag, trigger tag = true ->
  starts ok tag Changelog /\ starts ok tag Crates /\ (starts ok tag Homebrew <-> ~ In c_minus tag).
Proof. exact starts_alone. Qed.
Print Assumptions C84_crates_refuted.

Theorem C84_refuted : forall tag, trigger tag = true ->
  exists ok, (forall j, In j [Binaries; Deb; Rpm; Npm; Pypi] -> ~ starts ok tag j) /\ starts ok tag Crates.
Proof. exact published_apart. Qed.
Print Assumptions C84_refuted.
Example C84_ex : trigger (lit "v0.2.0") = true.
Proof. reflexivity. Qed.

(** ** C85: every Python wheel is built by one step, the one of its C library *)
Theorem C85_one_step_partial : forall b tag, In b matrix -> pypi_publish b = true ->
  length (filter (applies b tag) [WheelsLinux; WheelsOthers; WheelsMusl]) = 1.
Proof. exact one_wheel. Qed.
Print Assumptions C85_one_step_partial.

(** The step for musl is never run, though there are builds for it. *)
Theorem C85_musl_refuted : (forall b tag, applies b tag WheelsMusl = false) /\
  exists b, In b matrix /\ pypi_publish b = true /\ ends_with (lit "musl") (name b) = true.
Proof. split; [exact no_musl_wheel|exact musl_ex]. Qed.
Print Assumptions C85_musl_refuted.
