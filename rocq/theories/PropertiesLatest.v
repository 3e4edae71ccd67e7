(** * PropertiesLatest: pre-releases are not offered as the latest version (C122). *)
From Coq Require Import Ascii String.
From Verif Require Import Strings Release SpecRelease ReleaseFacts Latest LatestFacts.
Open Scope list_scope.

(** ** C122: the version that is offered is the last one that is no pre-release

    [offered p old tags]: the version that the place [p] offers behind these releases, [old] before them. *)

(** The workflow takes a version for a pre-release exactly if it is one or the name of its build has a hyphen. *)
Theorem C122_taken : forall v, a_version v -> (pre_release (tag_of v) = true <-> a_pre_release v \/ hyphen_in_build v).
Proof. exact taken_for. Qed.
Print Assumptions C122_taken.

(** The npm package smd and Homebrew offer the last release, *)
Theorem C122_latest_partial : forall p vs v old, p = NpmBase \/ p = Homebrew -> last_release vs v -> ~ hyphen_in_build v ->
  offered p old (map tag_of vs) = Some v.
Proof. exact offered_release. Qed.
Print Assumptions C122_latest_partial.

(** unless its build is named with a hyphen: then it is never offered, *)
Theorem C122_build_refuted : forall p vs v w, p = NpmBase \/ p = Homebrew -> a_release v -> hyphen_in_build v ->
  forall old, offered p old (map tag_of vs) = Some w -> offered p old (map tag_of (vs ++ [v])) = Some w.
Proof. exact offered_build. Qed.
Print Assumptions C122_build_refuted.

(** and GitHub and the npm packages of the platforms offer every pre-release. *)
Theorem C122_pre_refuted : forall p vs v old, p = GitHub \/ p = NpmPlatform -> a_pre_release v ->
  offered p old (map tag_of (vs ++ [v])) = Some v.
Proof. exact offered_pre. Qed.
Print Assumptions C122_pre_refuted.

Example C122_case : last_release (map lit ["1.0.0-rc.1"; "1.0.0"; "1.1.0-pre"]%string) (lit "1.0.0") /\
  ~ hyphen_in_build (lit "1.0.0") /\ a_release (lit "1.0.0+linux-x64") /\ hyphen_in_build (lit "1.0.0+linux-x64") /\
  a_pre_release (lit "0.1.3-pre").
Proof. exact latest_ex. Qed.
