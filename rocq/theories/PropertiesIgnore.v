(** * C125, C126: which files a release has. *)
From Coq Require Import Ascii String.
From Verif Require Import Strings Ignore SpecIgnore IgnoreFacts.
From Verif Require Prepare Cli.
Open Scope list_scope.

(** C125: what is ignored are exactly the files that are described without patterns. *)
Theorem C125_ignored : forall p, ignored p = true <-> left_out p.
Proof. exact ignored_iff. Qed.
Print Assumptions C125_ignored.
Example C125_ignored_case :
  ignored (map lit ["doc"; "a"; "b.md"]%string) = true /\ ignored (map lit ["gfm"; "doc"; "b.md"]%string) = false /\
  ignored (map lit ["tests"; "run-make"; "thumb-none-qemu"; "example"; ".cargo"; "x"]%string) = false /\
  ignored (map lit ["gfm"; ".cargo"; "x"]%string) = true /\
  ignored (map lit ["npm"; "smd"; "report.1a.2.3.4.json"]%string) = true /\
  ignored (map lit ["npm"; "report.1a.2.3.4.json"]%string) = false.
Proof. vm_compute. auto 8. Qed.

(** No output of smd and no page it prints from gets into the commit of a release, whatever is transpiled, wherever it is. *)
Theorem C125_outputs : forall upper hash_of day ok tag r c d n o out dir,
  Prepare.log (release_disk upper hash_of day ok tag r) = c :: Prepare.log r ->
  Cli.out_path (d ++ [n]) o = d ++ [out] \/ out = Cli.tmp_name ->
  named (dir ++ [out]) -> ~ tracked r (joined (dir ++ [out])) ->
  Prepare.get (Prepare.s_tree c) (joined (dir ++ [out])) = None.
Proof. exact outputs_stay. Qed.
Print Assumptions C125_outputs.
Example C125_outputs_case :
  exists c, Prepare.log after0 = c :: Prepare.log repo0 /\
    Cli.out_path [lit "repo"; lit "README.md"] Cli.Html = [lit "repo"; lit "README.html"] /\
    Prepare.get (Prepare.work repo0) (lit "README.html") <> None /\
    Prepare.get (Prepare.s_tree c) (lit "README.html") = None /\
    Prepare.get (Prepare.s_tree c) (lit "smd/src/lib.rs") = Some (lit "mod a;").
Proof. eexists. split; [reflexivity|]. vm_compute. repeat split; discriminate. Qed.

(** Nor does what is built. *)
Theorem C125_built : forall upper hash_of day ok tag r c l,
  Prepare.log (release_disk upper hash_of day ok tag r) = c :: Prepare.log r -> named l ->
  built l -> ~ tracked r (joined l) -> Prepare.get (Prepare.s_tree c) (joined l) = None.
Proof. exact (fun upper hash_of day ok tag r c l H N B => not_committed upper hash_of day ok tag r c l H N (built_left_out l B)). Qed.
Print Assumptions C125_built.
Example C125_built_case :
  built (map lit ["target"; "debug"; "smd"]%string) /\
  exists c, Prepare.log after0 = c :: Prepare.log repo0 /\ Prepare.get (Prepare.s_tree c) (lit "target/debug/smd") = None.
Proof.
  split; [exists (map lit ["debug"; "smd"]%string); split; [discriminate|left; reflexivity]|].
  eexists. split; [reflexivity|]. vm_compute. reflexivity.
Qed.

(** C126: the commit of a release has exactly these files. *)
Theorem C126_files_partial : forall upper hash_of day ok tag r c l,
  Prepare.log (release_disk upper hash_of day ok tag r) = c :: Prepare.log r -> named l ->
  (Prepare.get (Prepare.s_tree c) (joined l) <> None <->
   joined l = lit "CHANGELOG.md" \/
   (Prepare.get (Prepare.work r) (joined l) <> None /\ (tracked r (joined l) \/ ~ left_out l))).
Proof. exact commit_named. Qed.
Print Assumptions C126_files_partial.
Example C126_files_case :
  exists c, Prepare.log after0 = c :: Prepare.log repo0 /\
    map fst (Prepare.s_tree c) = map lit ["smd/src/lib.rs"; "smd-core/test_file.txt"; "CHANGELOG.md"]%string.
Proof. eexists. split; [reflexivity|]. vm_compute. reflexivity. Qed.

(** It has the files that tests left. *)
Theorem C126_leftovers_refuted : forall upper hash_of day ok tag r c n x,
  Prepare.log (release_disk upper hash_of day ok tag r) = c :: Prepare.log r ->
  In n of_tests -> Prepare.get (Prepare.work r) (joined (leftover n)) = Some x ->
  Prepare.get (Prepare.s_tree c) (joined (leftover n)) = Some x.
Proof. exact leftovers_committed. Qed.
Print Assumptions C126_leftovers_refuted.
Example C126_leftovers_case :
  exists c, Prepare.log after0 = c :: Prepare.log repo0 /\
    Prepare.get (Prepare.s_tree c) (lit "smd-core/test_file.txt") = Some (lit "text").
Proof. eexists. split; [reflexivity|]. vm_compute. reflexivity. Qed.

(** And it lacks new files of the project in a directory with the name build. *)
Theorem C126_sources_refuted : forall upper hash_of day ok tag r c d q,
  Prepare.log (release_disk upper hash_of day ok tag r) = c :: Prepare.log r ->
  q <> [] -> d <> map lit ["compiler"; "rustc_mir_build"; "src"]%string -> named (d ++ lit "build" :: q) ->
  ~ tracked r (joined (d ++ lit "build" :: q)) ->
  Prepare.get (Prepare.s_tree c) (joined (d ++ lit "build" :: q)) = None.
Proof. exact (fun upper hash_of day ok tag r c d q H Q D N => not_committed upper hash_of day ok tag r c _ H N (build_left_out d q Q D)). Qed.
Print Assumptions C126_sources_refuted.
Example C126_sources_case :
  exists c, Prepare.log after0 = c :: Prepare.log repo0 /\
    Prepare.get (Prepare.work repo0) (lit "smd/src/build/mod.rs") <> None /\
    Prepare.get (Prepare.s_tree c) (lit "smd/src/build/mod.rs") = None.
Proof. eexists. split; [reflexivity|]. vm_compute. split; [discriminate|reflexivity]. Qed.
