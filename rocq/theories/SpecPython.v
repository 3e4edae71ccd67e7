(** * SpecPython: what is said about the versions of the Python package. *)
From Coq Require Import Ascii String.
From Verif Require Import Strings Release SpecRelease Python.
Open Scope list_scope.

(** The text of a version: three numbers, and what is behind. *)
Definition numbered (x y z : nat) (tail : str) : str := dec x ++ lit "." ++ dec y ++ lit "." ++ dec z ++ tail.

(** The version of SemVer with these numbers and identifiers. *)
Definition with_pre (x y z : nat) (ids : list str) : version := {| major := x; minor := y; patch := z; pre := ids |}.

(** The version of Python with these numbers, and a pre-release or none. *)
Definition plain (x y z : nat) (p : option (phase * nat)) : python := Python 0 [x; y; z] p None None [].

(** The order of PEP 440 for versions of equally many numbers, without local versions. *)
Definition rank (p : phase) : nat := match p with Alpha => 1 | Beta => 2 | Candidate => 3 end.
Definition key (v : python) : list nat :=
  epoch v :: numbers v ++
  match prerelease v, postrelease v, devrelease v with
  | Some (p, n), _, _ => [rank p; n]
  | None, None, Some _ => [0; 0]
  | None, _, _ => [4; 0]
  end ++
  match postrelease v with Some n => [S n] | None => [0] end ++
  match devrelease v with Some n => [0; n] | None => [1; 0] end.
Definition earlier (a b : python) : Prop := lex eq lt (key a) (key b).

(** The words for pre-releases. *)
Definition spelled : list (str * phase) :=
  [(lit "a", Alpha); (lit "alpha", Alpha); (lit "b", Beta); (lit "beta", Beta);
   (lit "c", Candidate); (lit "rc", Candidate); (lit "pre", Candidate); (lit "preview", Candidate)].

(** The three in whose order SemVer and Python agree. *)
Definition common (p : phase) : str := match p with Alpha => lit "alpha" | Beta => lit "beta" | Candidate => lit "rc" end.
Definition ids_of (o : option (phase * nat)) : list str :=
  match o with None => [] | Some (p, n) => [common p; dec n] end.
Definition tail_of (o : option (phase * nat)) : str :=
  match o with None => [] | Some (p, n) => lit "-" ++ common p ++ lit "." ++ dec n end.

(** With what a part behind the hyphen can begin, in small letters: alpha, beta, c, dev, post, preview, rc, rev, or digits. *)
Definition starters : str := lit "abcdpr0123456789".

(** The words for post-releases. *)
Definition spelled_post : list str := [lit "post"; lit "rev"; lit "r"].

(** Local versions: words of small letters and digits with one of [-], [_], [.] between two. *)
Definition letter (c : char) : Prop := (48 <= c <= 57)%N \/ (97 <= c <= 122)%N.
Inductive local_text : str -> Prop :=
| local_word w : w <> [] -> Forall letter w -> local_text w
| local_more w c s : w <> [] -> Forall letter w -> In c (lit "-_.") -> local_text s -> local_text (w ++ c :: s).
