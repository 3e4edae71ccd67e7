(** * PropertiesPlatform: the npm packages of the platforms (C120, C121). *)
From Coq Require Import Ascii String.
From Verif Require Import Strings Release SpecRelease ReleaseFacts ReleaseProps Shell ShellFacts Platform SpecJson PlatformFacts.
Open Scope list_scope.

(** ** C120: the package of a platform says which platform and version it is for

    [package_json b tag]: the file that the workflow writes for the build [b]; [platforms]: the names there are to be,
    with the platform and the processor as node calls them. *)
Theorem C120_versions : forall v x b, read_version v = Some x -> In b matrix -> npm_publish b = true ->
  exists s p a, package_json b (tag_of v) = Some s /\ In (p, a, node_pkg b) platforms /\ describes s (node_pkg b) v p a.
Proof. exact version_describes. Qed.
Print Assumptions C120_versions.

Theorem C120_all : forall v x p a n, read_version v = Some x -> In (p, a, n) platforms ->
  exists b s, In b matrix /\ npm_publish b = true /\ package_json b (tag_of v) = Some s /\ describes s n v p a.
Proof. exact version_all. Qed.
Print Assumptions C120_all.

(** Also for tags that are no versions, as far as a script and a text in JSON hold them as they are. *)
Theorem C120_tags_partial : forall tag b, storable (release_version tag) -> In b matrix -> npm_publish b = true ->
  exists s p a, package_json b tag = Some s /\ In (p, a, node_pkg b) platforms /\
    describes s (node_pkg b) (release_version tag) p a.
Proof. exact package_describes. Qed.
Print Assumptions C120_tags_partial.

Example C120_case : (exists x, read_version (lit "0.2.0-rc.1") = Some x) /\
  package_json (nth 7 matrix dummy) (lit "v0.2.0-rc.1") = Some (template_for (lit "smd-windows-x64") (lit "0.2.0-rc.1") (lit "win32") (lit "x64")).
Proof. exact package_ex. Qed.

(** For other tags it fails: the shell takes quotes away, and the package has another version than the release. *)
Theorem C120_quotes_refuted : forall a x b, forallb tame a = true -> forallb bare x = true -> forallb tame b = true ->
  forallb letter (a ++ x ++ b) = true -> forall tag, release_version tag = a ++ [c_quot] ++ x ++ [c_quot] ++ b ->
  forall d, published d -> exists s o, package_json d tag = Some s /\ read_json s = Some o /\ has o "version" (Text (a ++ x ++ b)).
Proof. exact package_quotes. Qed.
Print Assumptions C120_quotes_refuted.

Example C120_quotes_refuted_case : let tag := lit "v1.0.""0""" in
  git_tag tag = true /\ trigger tag = true /\ release_version tag = lit "1.0." ++ [c_quot] ++ lit "0" ++ [c_quot] ++ [].
Proof. vm_compute. auto. Qed.

(** ** C121: npm installs the program that runs on the system

    On a system npm installs the package of this platform and no other, and where there is none, none. *)
Theorem C121_only : forall v x m, read_version v = Some x -> forall n,
  (exists b s, In b matrix /\ npm_publish b = true /\ node_pkg b = n /\ package_json b (tag_of v) = Some s /\ installs s m)
  <-> In (platform m, arch m, n) platforms.
Proof. exact version_only. Qed.
Print Assumptions C121_only.

Theorem C121_program : forall v x b s m, read_version v = Some x -> In b matrix -> npm_publish b = true ->
  package_json b (tag_of v) = Some s -> installs s m ->
  (platform m = lit "win32" -> package_program b = lit "bin/smd.exe") /\
  (platform m <> lit "win32" -> package_program b = lit "bin/smd").
Proof. exact version_program. Qed.
Print Assumptions C121_program.

(** The program in it runs there unless the system has musl; *)
Theorem C121_runs_partial : forall v x b t s m, read_version v = Some x -> In (b, t) builds -> npm_publish b = true ->
  real m -> package_json b (tag_of v) = Some s -> installs s m -> libc m <> Musl -> runs_on t m.
Proof. exact version_runs. Qed.
Print Assumptions C121_runs_partial.

(** on Linux with musl (Alpine) the package is installed and the program does not run. *)
Theorem C121_musl_refuted : forall v x a n, read_version v = Some x -> In (lit "linux", a, n) platforms ->
  exists b t s, In (b, t) builds /\ npm_publish b = true /\ node_pkg b = n /\ package_json b (tag_of v) = Some s /\
    installs s (System (lit "linux") a Musl) /\ real (System (lit "linux") a Musl) /\
    ~ runs_on t (System (lit "linux") a Musl).
Proof. exact version_musl. Qed.
Print Assumptions C121_musl_refuted.

Example C121_case : map fst builds = matrix /\
  runs_on "x86_64-unknown-linux-gnu" (System (lit "linux") (lit "x64") Glibc) /\ real (System (lit "win32") (lit "x64") Native) /\
  installs (template_for (lit "smd-linux-x64") (lit "1.0.0") (lit "linux") (lit "x64")) (System (lit "linux") (lit "x64") Musl).
Proof. exact installs_ex. Qed.
