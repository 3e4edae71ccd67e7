(** * Jobs: the jobs of .github/workflows/release.yaml and what they wait for. *)
From Coq Require Import Ascii String.
From Verif Require Import Strings Release.
Open Scope list_scope.

(** release.yaml:13, 47, 310, 341, 360, 413, 464, 495 *)
Inductive job := Changelog | Binaries | Npm | Pypi | Deb | Rpm | Crates | Homebrew.

(** [needs:], release.yaml:49, 312, 344, 362, 415; none for the others *)
Definition needs (j : job) : list job :=
  match j with
  | Changelog | Crates | Homebrew => []
  | Binaries | Deb | Rpm => [Changelog]
  | Npm | Pypi => [Binaries]
  end.

(** [if:], release.yaml:497 *)
Definition wanted (tag : str) (j : job) : bool :=
  match j with Homebrew => negb (pre_release tag) | _ => true end.

(** A job starts when the workflow is triggered (release.yaml:3-6), its condition holds and all
    jobs it needs have been run and succeeded; [ok] says which succeed when they are run. *)
Inductive starts (ok : job -> bool) (tag : str) : job -> Prop :=
| starts_job j : trigger tag = true -> wanted tag j = true ->
    (forall n, In n (needs j) -> starts ok tag n /\ ok n = true) -> starts ok tag j.
