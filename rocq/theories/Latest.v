(** * Latest: which version the places offer that .github/workflows/release.yaml publishes to

    As if the jobs succeed (C73 and C84 say when they do). *)
From Coq Require Import Ascii String.
From Verif Require Import Strings Release.
Open Scope list_scope.

(** GitHub (release.yaml:37-45), the npm package smd (:322-336), the npm packages of the platforms (:247-271), Homebrew
    (:495-508). *)
Inductive place := GitHub | NpmBase | NpmPlatform | Homebrew.

(** What a place offers to those who ask for no particular version, behind a release with this tag.
    - GitHub: the newest release that is not marked as a pre-release.  [generate-changelog] makes the release, with
      [prerelease: false] (:44); the later steps with [prerelease: true] (:240, :411, :462) only add files to it
      (upload-release-action 2 takes a release that exists as it is).
    - npm: the version with the tag latest.  Publishing sets it, unless [--tag] names another (:333); a package that is
      new gets it in any case.
    - Homebrew: the formula, which is bumped if the name of the tag has no hyphen (:497). *)
Definition offer (p : place) (old : option str) (tag : str) : option str :=
  let new := Some (release_version tag) in
  match p with
  | GitHub | NpmPlatform => new
  | NpmBase => match old with
               | Some _ => if pre_release tag then old else new
               | None => new
               end
  | Homebrew => if pre_release tag then old else new
  end.

(** Behind all of these releases. *)
Definition offered (p : place) (old : option str) (tags : list str) : option str := fold_left (offer p) tags old.
