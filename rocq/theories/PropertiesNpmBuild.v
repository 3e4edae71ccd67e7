(** * C127: the npm package smd is published and complete, and its program starts smd. *)
From Coq Require Import Ascii String.
From Verif Require Import Strings NpmBuild NpmBuildFacts.
From Verif Require Npm Release SpecRelease Platform SpecJson PlatformFacts.
Open Scope list_scope.

(** Without a configuration of tsup, as in /repo, nothing is published, whatever the other commands do. *)
Theorem C127_published_refuted : forall says ok t, ~ configured t -> publish_npm says None ok t = None.
Proof. exact never_published. Qed.
Print Assumptions C127_published_refuted.
Theorem C127_repository_refuted : forall says ok, publish_npm says None ok checkout = None.
Proof. exact (fun says ok => never_published says ok checkout checkout_not_configured). Qed.
Print Assumptions C127_repository_refuted.
Example C127_published_case : ~ configured checkout /\ In [lit "npm"; lit "smd"; lit "package.json"] checkout.
Proof. split; [exact checkout_not_configured|vm_compute; auto 200]. Qed.

(** The configuration is in the nearest directory, in the first of the files there; or outside of the repository. *)
Theorem C127_configuration : forall says above t dir n, read_first t dir n -> configs says above t = says (dir ++ [n]).
Proof. exact configuration_read. Qed.
Print Assumptions C127_configuration.
Theorem C127_outside : forall says cs t, ~ configured t -> configs says (Some cs) t = cs.
Proof. exact configuration_above. Qed.
Print Assumptions C127_outside.
Example C127_configuration_case : read_first ([lit "tsup.config.js"] :: [lit "npm"; lit "tsup.config.json"] :: checkout) [lit "npm"] (lit "tsup.config.json").
Proof.
  exists [[lit "npm"; lit "smd"]], [[]], (removelast config_files), []. split; [reflexivity|]. split; [reflexivity|].
  split; [right; left; reflexivity|]. split.
  - intros m I J. apply has_iff in J. repeat (destruct I as [<-|I]; [vm_compute in J; discriminate|]). destruct I.
  - intros d m [<-|[]] I J. apply has_iff in J. repeat (destruct I as [<-|I]; [vm_compute in J; discriminate|]). destruct I.
Qed.

(** With one, a package is published exactly if all commands succeed, every part of the configuration has files to
    begin with and these exist, and the texts that are copied are there; *)
Theorem C127_when_partial : forall says above ok t,
  (exists pkg, publish_npm says above ok t = Some pkg) <->
  (forall c, ok c = true) /\ (forall c, In c (configs says above t) -> buildable t c) /\
  (In [lit "README.md"] t /\ In [lit "CHANGELOG.md"] t).
Proof. exact published_iff. Qed.
Print Assumptions C127_when_partial.

(** it has exactly these files; *)
Theorem C127_contents_partial : forall says above ok t pkg q, publish_npm says above ok t = Some pkg ->
  (In q pkg <-> wanted q /\
   (In ([lit "npm"; lit "smd"] ++ q) t \/ made_by (configs says above t) q \/ q = [lit "README.md"] \/ q = [lit "CHANGELOG.md"])).
Proof. exact contents_iff. Qed.
Print Assumptions C127_contents_partial.

(** and it has all files that package.json names exactly if the configuration makes these. *)
Theorem C127_complete_partial : forall says above ok t pkg,
  publish_npm says above ok t = Some pkg -> (forall q, ~ In (package_dir ++ lit "lib" :: q) t) ->
  (complete pkg <->
   makes (configs says above t) (lit "cli") [lit "lib"; lit "cli"] Esm false /\
   makes (configs says above t) (lit "index") [lit "lib"; lit "esm"] Esm true /\
   makes (configs says above t) (lit "index") [lit "lib"; lit "cjs"] Cjs true).
Proof. exact complete_iff. Qed.
Print Assumptions C127_complete_partial.
Example C127_complete_case :
  publish_npm (fun _ => three) None (fun _ => true) with_config =
  Some (map (map lit) [["package.json"]; ["lib"; "cli"; "cli.js"]; ["lib"; "esm"; "index.js"]; ["lib"; "esm"; "index.d.ts"];
                       ["lib"; "cjs"; "index.cjs"]; ["lib"; "cjs"; "index.d.cts"]; ["README.md"]; ["CHANGELOG.md"]]%string) /\
  publish_npm (fun _ => [Config [lit "cli"; lit "index"] [lit "dist"] [Esm] true]) None (fun _ => true) with_config =
  Some [[lit "package.json"]; [lit "README.md"]; [lit "CHANGELOG.md"]].
Proof. vm_compute. auto. Qed.

(** In no package that is installed with it is the program that it starts: everything but the name is right. *)
Theorem C127_started_refuted : forall v x b s m,
  Release.read_version v = Some x -> In b Release.matrix -> Release.npm_publish b = true ->
  Platform.package_json b (SpecRelease.tag_of v) = Some s -> SpecJson.installs s m ->
  exists place ext,
    Release.node_pkg b ++ lit "/" ++ Platform.package_program b = lit "smd-" ++ place ++ lit "/bin/smd" ++ ext /\
    Npm.exe_module (SpecJson.platform m) (SpecJson.arch m) = lit "git-cliff-" ++ place ++ lit "/bin/git-cliff" ++ ext.
Proof. exact other_name. Qed.
Print Assumptions C127_started_refuted.
Example C127_started_case :
  Npm.exe_module (lit "win32") (lit "arm64") = lit "git-cliff-windows-arm64/bin/git-cliff.exe" /\
  exists b, In b Release.matrix /\ Release.npm_publish b = true /\
    Release.node_pkg b ++ lit "/" ++ Platform.package_program b = lit "smd-windows-arm64/bin/smd.exe".
Proof. split; [vm_compute; reflexivity|]. exists (nth 9 Release.matrix PlatformFacts.dummy). vm_compute. auto 20. Qed.
