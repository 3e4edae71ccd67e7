(** * PropertiesArgs: the command line (C60, C64, C66, C67) and the log it asks for (C51, C52, C65).

    [understood home f dir args] is what the program makes of the words [args],
    if [home] is the home directory, [f] the file system and [dir] the working
    directory. *)
From Coq Require Import Ascii String.
From Verif Require Import Strings StringsFacts Token Iter Lexer Parser Utf8 System Config Cli SpecCli SystemFacts CliFacts
  CliMain CliRuns CliProps Args Clap SpecArgs ClapFacts Filter SpecLog FilterFacts Npm NpmFacts ArgsProps.
Open Scope list_scope.

(** ** C64: a command is started exactly by the lines of the grammar, with the meaning
    that the grammar gives them. *)
Theorem C64_accepted : forall home f dir args c v,
  understood home f dir args = Accepted c v <-> line home f dir args c v.
Proof. exact accepted_iff. Qed.
Print Assumptions C64_accepted.

(** Help is shown exactly to those that ask for it and are in order up to there. *)
Theorem C64_help : forall home f dir args,
  understood home f dir args = ShowHelp <-> help_line home f dir args.
Proof. exact help_iff. Qed.
Print Assumptions C64_help.

(** Without a command nothing is written or logged, and the status is 2, or 0 behind
    a text that was asked for; status 2 has no other reason. *)
Theorem C64_no_effect : forall home f dir n st args m xs,
  (forall c v, understood home f dir args <> Accepted c v) ->
  exists p', exec xs f (start m (program home f dir n st args)) = (f, p') /\ logged (here p') = [] /\
    status p' = Some (match understood home f dir args with Refused => 2 | _ => 0 end).
Proof. exact program_end. Qed.
Print Assumptions C64_no_effect.

Theorem C64_status : forall home f dir n st args m xs f' p',
  exec xs f (start m (program home f dir n st args)) = (f', p') ->
  (status p' = Some 2 <-> understood home f dir args = Refused).
Proof. exact status_2. Qed.
Print Assumptions C64_status.

(** C40, C41 from the command line on. *)
Theorem C64_C40_html_partial : forall home f n st m xs args input v f' p',
  new_process m f -> Forall no_short xs -> line home f (cwd m) args (CParse input Html) v ->
  exec xs f (start m (program home f (cwd m) n st args)) = (f', p') -> status p' = Some 0 ->
  exists b s html out,
    contents f input = Some b /\ decode b = Some s /\ renders s html /\
    replaced (lit "html") input out /\
    contents f' out = Some (encode html) /\ only_changes f out f'.
Proof. exact html_command. Qed.
Print Assumptions C64_C40_html_partial.

Definition a_line : list str := [lit "-vv"; lit "--debug"; lit "parse"; lit "--output=html"; lit "-i"; lit "a.md"; lit "--"].
Example C64_case :
  line None (sample_disk [] []) [lit "w"] a_line (CParse [lit "w"; lit "a.md"] Html) 3.
Proof.
  apply (line_parse None (sample_disk [] []) [lit "w"] [lit "-vv"; lit "--debug"] 3 [lit "w"; lit "a.md"] (Some Html)
           ([lit "--output=html"] ++ ([lit "-i"; lit "a.md"] ++ [])) [lit "--"]).
  - apply (loud_more (lit "-vv") 2 [lit "--debug"] 1); [apply (louder_short 1)|].
    apply (loud_more (lit "--debug") 1 [] 0); constructor.
  - apply (output_option _ _ _ (lit "html") Html); [apply (long_equals 111%N (lit "output") (lit "html"))|constructor|].
    apply (input_option _ _ _ (lit "a.md")); [apply (short_apart 105%N (lit "input") (lit "a.md")); right; reflexivity| |constructor].
    vm_compute. reflexivity.
  - constructor.
Qed.
Example C64_words : understood None (sample_disk [] []) [lit "w"] a_line = Accepted (CParse [lit "w"; lit "a.md"] Html) 3 /\
  understood None (sample_disk [] []) [lit "w"] [lit "parse"; lit "-ia.md"] = Accepted (CParse [lit "w"; lit "a.md"] Pdf) 0 /\
  understood None (sample_disk [] []) [lit "w"] [lit "parse"; lit "-i"; lit "-h"] = Refused /\
  understood None (sample_disk [] []) [lit "w"] [lit "parse"; lit "-ia.md"; lit "-hx"] = ShowHelp /\
  understood None (sample_disk [] []) [lit "w"] [lit "parse"; lit "-ia.md"; lit "-i=a.md"] = Refused.
Proof. vm_compute. auto. Qed.
Example C64_run : status (snd (exec (oks 9) (sample_disk [] [])
    (start (sample_machine 1) (program None (sample_disk [] []) (cwd (sample_machine 1)) 9 sample_settings
      [lit "parse"; lit "-i"; lit "/w/a.md"; lit "-ohtml"])))) = Some 0.
Proof. vm_compute. reflexivity. Qed.

(** ** C60: no command line shows the version; both forms of the flag show the help text. *)
Theorem C60_version_refuted : forall home f dir args,
  understood home f dir args <> ShowVersion /\
  forall vs k rest, loudness vs k ->
    understood home f dir (vs ++ lit "--version" :: rest) = ShowHelp /\
    understood home f dir (vs ++ lit "-V" :: rest) = ShowHelp.
Proof. exact version_help. Qed.
Print Assumptions C60_version_refuted.

(** ** C67: the usage line, smd [OPTIONS] [FLAGS] (args.rs:28).

    Refuted for all options and flags: in neither order is it a command line of
    the program, which wants a command; and behind the command no flag that
    raises the verbosity is accepted. *)
Theorem C67_usage_refuted : forall home f dir i o ws vs k,
  options home f dir i o ws -> loudness vs k ->
  understood home f dir (ws ++ vs) = Refused /\ understood home f dir (vs ++ ws) = Refused.
Proof. exact usage_refused. Qed.
Print Assumptions C67_usage_refuted.

Theorem C67_late_flag_refuted : forall home f dir vs k i o ws a j rest,
  loudness vs k -> options home f dir i o ws -> louder a j ->
  understood home f dir (vs ++ [lit "parse"] ++ ws ++ a :: rest) = Refused /\
  understood home f dir (vs ++ [lit "initialize"] ++ a :: rest) = Refused.
Proof. exact late_verbose. Qed.
Print Assumptions C67_late_flag_refuted.

Example C67_case : understood None (sample_disk [] []) [lit "w"] [lit "-i"; lit "a.md"; lit "-v"] = Refused /\
  understood None (sample_disk [] []) [lit "w"] [lit "parse"; lit "-i"; lit "a.md"; lit "-v"] = Refused /\
  understood None (sample_disk [] []) [lit "w"] [lit "-v"; lit "parse"; lit "-i"; lit "a.md"] =
    Accepted (CParse [lit "w"; lit "a.md"] Pdf) 1.
Proof. vm_compute. auto. Qed.

(** ** C66: the options of the npm package.

    Refuted for all of them: whatever object of the type Options is given, the
    program starts no command. *)
Theorem C66_options_refuted : forall home f dir u os args c v, well_typed os ->
  options_to_args u os = map AString args -> understood home f dir args <> Accepted c v.
Proof. exact npm_refused. Qed.
Print Assumptions C66_options_refuted.

Example C66_case : forall u,
  well_typed [(lit "verbose", JTrue); (lit "output", JString (lit "html"))] /\
  options_to_args u [(lit "verbose", JTrue); (lit "output", JString (lit "html"))] =
    map AString [lit "--verbose"; lit "--output"; lit "html"] /\
  understood None (sample_disk [] []) [lit "w"] [lit "--verbose"; lit "--output"; lit "html"] = Refused.
Proof.
  intros u. split; [|split; reflexivity].
  intros k v [E|[E|[]]]; injection E as <- <-; (split; [vm_compute; tauto|]); auto.
  vm_compute. intuition discriminate.
Qed.

(** ** C65: of the entries in RUST_LOG the last one for the most specific name decides. *)
Theorem C65_entries : forall regex spec es r, entries spec es ->
  (passes regex spec r = true <-> exists l, decides es (rec_target r) l /\ rank (rec_level r) <= l).
Proof. exact passes_decides. Qed.
Print Assumptions C65_entries.

(** An expression behind a slash takes away the messages without a match. *)
Theorem C65_expression : forall regex spec es x r, entries spec es -> ~ In 47%N x ->
  passes regex (spec ++ lit "/" ++ x) r =
  passes regex spec r && match regex x with Some m => m (rec_text r) | None => true end.
Proof. exact passes_regex. Qed.
Print Assumptions C65_expression.

(** Set but empty, it lets errors pass. *)
Theorem C65_empty : forall regex r, passes regex [] r = (rank (rec_level r) <=? 1).
Proof. exact passes_nothing. Qed.
Print Assumptions C65_empty.

Example C65_case :
  entries (lit "Warn,smd_core=debug,smd=off") [(None, 2); (Some (lit "smd_core"), 4); (Some (lit "smd"), 0)] /\
  decides [(None, 2); (Some (lit "smd_core"), 4); (Some (lit "smd"), 0)] (lit "smd_core::fs") 4 /\
  forall regex, map (fun p => passes regex (lit "Warn,smd_core=debug,smd=off") {| rec_level := fst p; rec_target := snd p; rec_text := [] |})
    [(LDebug, lit "smd_core::fs"); (LTrace, lit "smd_core::fs"); (LError, lit "smd"); (LWarn, lit "headless")] =
    [true; false; false; true].
Proof.
  assert (M : forall n, existsb (fun c => is_whitespace c || mem_char c [47%N; 44%N; 61%N]) n = false -> n <> [] -> module_name n).
  { intros n E N. split; [exact N|]. intros c I.
    assert (X : is_whitespace c || mem_char c [47%N; 44%N; 61%N] = false).
    { destruct (is_whitespace c || mem_char c [47%N; 44%N; 61%N]) eqn:X; [|reflexivity].
      rewrite (proj2 (existsb_exists _ n) (ex_intro _ c (conj I X))) in E. discriminate. }
    apply orb_false_iff in X. destruct X as [X1 X2]. split; [exact X1|].
    repeat split; intros ->; discriminate. }
  split; [|split].
  - apply (entry_more (lit "Warn") (None, 2) (lit "smd_core=debug,smd=off")); [constructor; reflexivity|].
    apply (entry_more (lit "smd_core=debug") (Some (lit "smd_core"), 4) (lit "smd=off")).
    + apply (says_both (lit "smd_core") (lit "debug") 4); [apply M; [reflexivity|discriminate]|reflexivity].
    + constructor. apply (says_both (lit "smd") (lit "off") 0); [apply M; [reflexivity|discriminate]|reflexivity].
  - exists [(None, 2)], (Some (lit "smd_core")), [(Some (lit "smd"), 0)]. split; [reflexivity|]. split; [reflexivity|].
    split; [intros l' [E|[]]; discriminate|]. intros n l [E|[E|[E|[]]]] _; injection E as <- _; vm_compute; lia.
  - intros regex. vm_compute. reflexivity.
Qed.

(** ** C51: the error with which a run ends is logged; it is shown exactly if RUST_LOG
    lets errors of smd pass. *)
Theorem C51_shown_partial : forall n st c m f xs f' p',
  exec xs f (start m (main n st c)) = (f', p') -> status p' = Some 1 ->
  exists e, In e (logged (here p')) /\ rec_level e = LError /\ rec_target e = lit "smd" /\
    forall regex spec es, entries spec es ->
      (In e (shown regex spec (logged (here p'))) <-> exists l, decides es (lit "smd") l /\ 1 <= l).
Proof. exact error_shown. Qed.
Print Assumptions C51_shown_partial.

(** C51 as stated is false: with any word in RUST_LOG that is no level and no beginning
    of smd, the error of a run that fails is not shown. *)
Theorem C51_silent_refuted : forall n st c m f xs f' p' w,
  exec xs f (start m (main n st c)) = (f', p') -> status p' = Some 1 ->
  module_name w -> (forall l, ~ level_word w l) -> starts_with w (lit "smd") = false ->
  exists e pre, logged (here p') = pre ++ [e] /\ rec_level e = LError /\
    forall regex, ~ In e (shown regex (rust_log (verbose_of 0) (Some w)) (logged (here p'))).
Proof. exact silent_failure. Qed.
Print Assumptions C51_silent_refuted.

(** C51: such a run, of which nothing at all is shown *)
Theorem C51_silent_run_refuted : exists n st c m f xs f' p',
  new_process m f /\ exec xs f (start m (main n st c)) = (f', p') /\ status p' = Some 1 /\
  forall regex, shown regex (rust_log (verbose_of 0) (Some (lit "verbose"))) (logged (here p')) = [] /\
    shown regex (rust_log (verbose_of 0) (Some (lit "off"))) (logged (here p')) = [].
Proof. exact silent_run. Qed.
Print Assumptions C51_silent_run_refuted.

(** ** C52: the flags before the command decide, whatever RUST_LOG is; without them it
    does, or info. *)
Theorem C52_verbosity : forall home f dir args c v, understood home f dir args = Accepted c v ->
  exists vs k rest, args = vs ++ rest /\ loudness vs k /\
  ((exists i o ws tl, rest = [lit "parse"] ++ ws ++ tl /\ options home f dir i o ws /\ words_end tl) \/
   (exists tl, rest = [lit "initialize"] ++ tl /\ words_end tl)) /\
  forall regex var r,
    (k = 0 -> passes regex (rust_log v var) r =
       match var with None => rank (rec_level r) <=? rank LInfo | Some s => passes regex s r end) /\
    (k = 1 -> passes regex (rust_log v var) r = (rank (rec_level r) <=? rank LDebug)) /\
    (2 <= k -> passes regex (rust_log v var) r = true).
Proof. exact verbosity. Qed.
Print Assumptions C52_verbosity.

Example C52_case : understood None (sample_disk [] []) [lit "w"] [lit "-v"; lit "initialize"] = Accepted CInitialize 1 /\
  understood None (sample_disk [] []) [lit "w"] [lit "-" ++ crep 300 118%N; lit "initialize"] = Accepted CInitialize 255 /\
  rust_log 255 (Some (lit "off")) = lit "trace".
Proof. vm_compute. auto. Qed.
