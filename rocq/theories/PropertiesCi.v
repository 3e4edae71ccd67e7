(** * PropertiesCi: the tests of the repository (C75, C76) and the generators of manual and completions (C77). *)
From Coq Require Import Ascii String.
From Verif Require Import Strings StringsFacts Parser Lexer Suite Ci Utf8 IterBytes SpecCi CiFacts
  System SpecCli Cli Generate GenerateFacts.
Open Scope list_scope.

(** ** C75: the workflow notices failing tests *)

(** C75 as stated is false: if everything is formatted and builds, both jobs succeed, whatever the
    tests give. *)
Theorem C75_refuted : forall run,
  main_job true true true run = true /\ forall t, coverage_job true t true run = true.
Proof. exact jobs_always. Qed.
Print Assumptions C75_refuted.

(** What the jobs do depend on. *)
Theorem C75_exact : forall fmt clippy builds install tarpaulin upload run,
  (main_job fmt clippy builds run = true <-> fmt = true /\ clippy = true /\ builds = true) /\
  (coverage_job install tarpaulin upload run = true <-> install = true /\ upload = true).
Proof. exact jobs_exact. Qed.
Print Assumptions C75_exact.

Theorem C75_no_guard_refuted : ~ guards (main_job true true true) /\ forall t, ~ guards (coverage_job true t true).
Proof. exact no_guard. Qed.
Print Assumptions C75_no_guard_refuted.

(** The reason: the tests that count are those with the filter in their names, ... *)
Theorem C75_filter : forall f run ts, cargo_test f run ts = true <->
  forall t, In t ts -> infix f t -> run t = true.
Proof. exact cargo_test_iff. Qed.
Print Assumptions C75_filter.
(** ... and there are none. *)
Example C75_nothing_runs : filter (contains (lit "smd")) all_tests = [] /\ length all_tests = 702.
Proof. vm_compute. auto. Qed.

(** C75 without the word [smd] in main.yaml:43. *)
Theorem C75_unfiltered_partial : guards (fun run => cargo_test [] run all_tests).
Proof. exact unfiltered_guard. Qed.
Print Assumptions C75_unfiltered_partial.
(** The tests of the renderer pass exactly for renderers that return the texts expected. *)
Theorem C75_results : forall r others e, In e suite ->
  (results r others (Ci.path e) = true <-> r (source e) = Some (expected e)).
Proof. exact results_exact. Qed.
Print Assumptions C75_results.
Theorem C75_unfiltered_renderer_partial : forall r others,
  cargo_test [] (results r others) all_tests = true -> forall e, In e suite -> r (source e) = Some (expected e).
Proof. exact suite_checks. Qed.
Print Assumptions C75_unfiltered_renderer_partial.
Example C75_unfiltered_case :
  cargo_test [] (results (fun _ => None) (fun _ => true)) all_tests = false /\
  main_job true true true (results (fun _ => None) (fun _ => true)) = true.
Proof. vm_compute. auto. Qed.

(** ** C76: the tests pass *)

(** C76 as stated is false. *)
Theorem C76_refuted : exists e out, In e suite /\ renders (source e) out /\ out <> expected e.
Proof. exact suite_fails. Qed.
Print Assumptions C76_refuted.

(** The tests of the renderer that pass are those listed in SpecCi.v. *)
Theorem C76_exact_partial : forall e, In e suite -> (passes e <-> named e passing).
Proof. exact suite_exact. Qed.
Print Assumptions C76_exact_partial.
Example C76_numbers : length suite = 677 /\ length (concat (map snd passing)) = 71 /\
  length (filter (fun e => member e passing) suite) = 71.
Proof. vm_compute. auto. Qed.

(** None of them panics or runs forever. *)
Theorem C76_all_end : forall e, In e suite -> exists out, renders (source e) out.
Proof. exact suite_ends. Qed.
Print Assumptions C76_all_end.

(** The tests of the iterator pass. *)
Theorem C76_iterator_partial : forall t, In t iter_tests -> exists it',
  b_run (asked t) (b_new (encode (text t))) =
    Ret (map (fun a => AText (option_map encode a)) (told t), it').
Proof. exact iter_tests_pass. Qed.
Print Assumptions C76_iterator_partial.
Example C76_iterator_case : length iter_tests = 11 /\ Forall (fun t => text t <> []) iter_tests.
Proof. split; [reflexivity|]. repeat constructor; vm_compute; discriminate. Qed.

(** ** C77: manual and completions *)

(** C77, the manual: whatever fails and whenever the process dies, no other file changes, and if
    the status is 0 the manual is complete. *)
Theorem C77_manual : forall m f xs dir page f' p', new_process m f ->
  exec xs f (start m (mangen (Some dir) page)) = (f', p') ->
  only_changes f (dir ++ [lit "smd.1"]) f' /\
  (status p' = Some 0 -> contents f' (dir ++ [lit "smd.1"]) = Some page).
Proof. exact mangen_complete. Qed.
Print Assumptions C77_manual.

(** C77, the completions, in a directory that does not have them yet. *)
Theorem C77_completions : forall m f xs dir script f' p', new_process m f ->
  (forall s, names f (script_file dir s) = None) ->
  exec xs f (start m (completions (Some dir) script)) = (f', p') ->
  (forall q, (forall s, resolve max_links f q <> Some (script_file dir s)) -> contents f' q = contents f q) /\
  (status p' = Some 0 -> forall s, contents f' (script_file dir s) = Some (script s)).
Proof. exact completions_complete. Qed.
Print Assumptions C77_completions.

(** Without OUT_DIR both panic and change nothing. *)
Theorem C77_no_directory : forall m f xs page script,
  (forall f' p', exec xs f (start m (mangen None page)) = (f', p') -> f' = f /\ status p' = Some 101) /\
  (forall f' p', exec xs f (start m (completions None script)) = (f', p') -> f' = f /\ status p' = Some 101).
Proof. exact no_out_dir. Qed.
Print Assumptions C77_no_directory.

(** The Debian package takes the program, two files of the repository, the manual and three of the scripts. *)
Theorem C77_package : forall root, map (asset_path root) deb_assets =
  [ root ++ [lit "target"; lit "release"; lit "smd"]; root ++ [lit "LICENSE"]; root ++ [lit "README.md"];
    man_file (man_dir root) ] ++ map (script_file (completions_dir root)) [Bash; Fish; Zsh].
Proof. exact assets_there. Qed.
Print Assumptions C77_package.

(** Runs with short writes, and one with a failing write. *)
Definition out : path := [lit "out"].
Definition generating (xs : list choice) : fs * proc nat :=
  exec xs (disk [([], NDir); (out, NDir)] []) (start {| pid := 1; cwd := []; pdf_of := fun b => b |}
    (completions (Some out) (fun s => lit "complete " ++ script_name s))).
Example C77_case :
  (forall m, pid m <> 0 -> new_process m (disk [([], NDir); (out, NDir)] [])) /\
  (forall s, names (disk [([], NDir); (out, NDir)] []) (script_file out s) = None) /\
  status (snd (generating [Ok; Short 3; Short 1; Ok; Ok; Ok; Ok; Ok; Ok; Ok; Ok; Ok])) = Some 0 /\
  contents (fst (generating [Ok; Short 3; Short 1; Ok; Ok; Ok; Ok; Ok; Ok; Ok; Ok; Ok]))
    [lit "out"; lit "smd.bash"] = Some (lit "complete smd.bash") /\
  status (snd (generating [Ok; Short 3; Fail (lit "no space")])) = Some 101 /\
  status (snd (generating [Ok; Ok; Fail (lit "no space")])) = Some 1.
Proof.
  split.
  { intros m _ p k. unfold disk. cbn [names List.find fst snd].
    destruct (path_eqb [] p); [discriminate|]. destruct (path_eqb out p); discriminate. }
  split; [intros []; vm_compute; reflexivity|]. vm_compute. auto.
Qed.
