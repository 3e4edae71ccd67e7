(** * SpecRelease: what is said about releases, without [sed]. *)
From Coq Require Import Ascii String.
From Verif Require Import Strings Release.
Open Scope list_scope.

Definition c_quote : char := 34%N.

(** Chars of versions: letters, digits, [.], [-], [+]. *)
Definition version_char (c : char) : bool :=
  (N.leb 48 c && N.leb c 57) || (N.leb 65 c && N.leb c 90) || (N.leb 97 c && N.leb c 122) ||
  mem_char c [c_dot; c_minus; c_plus].

Definition version_text (v : str) : Prop := v <> [] /\ forallb version_char v = true.

(** A line of a Cargo.toml that the script is to change; what stands for the dot is any char. *)
Definition managed (l : str) : Prop :=
  exists y d, l = lit "version = " ++ y ++ lit " # managed by release" ++ d :: lit "sh".

(** The line for the version [v]. *)
Definition managed_line (v : str) : str := lit "version = """ ++ v ++ lit """ # managed by release.sh".

Definition no_nl (s : str) : Prop := ~ In c_nl s.
Definition no_quote (s : str) : Prop := ~ In c_quote s.

(** [l] is [p "version": "w" q], where [w] is not empty. *)
Definition has_version (l p w q : str) : Prop :=
  l = p ++ lit """version"": """ ++ w ++ c_quote :: q /\ w <> [].

(** [l] is [p "smd-g": "w" q], where [g] and [w] are not empty. *)
Definition has_dependency (l p g w q : str) : Prop :=
  l = p ++ lit """smd-" ++ g ++ lit """: """ ++ w ++ c_quote :: q /\ g <> [] /\ w <> [].

(** The first of these in the line, up to the last quote in it. *)
Definition first_version (l p w q : str) : Prop :=
  has_version l p w q /\ no_quote q /\ forall p' w' q', has_version l p' w' q' -> length p <= length p'.

(** The same, with the longest name. *)
Definition first_dependency (l p g w q : str) : Prop :=
  has_dependency l p g w q /\ no_quote q /\
  (forall p' g' w' q', has_dependency l p' g' w' q' -> length p <= length p') /\
  (forall g' w', has_dependency l p g' w' q -> length g' <= length g).

(** *** What a release of the version [v] does to a line *)
Definition toml_change (v l l' : str) : Prop :=
  (managed l /\ l' = managed_line v) \/ (~ managed l /\ l' = l).

Definition package_change (v l l' : str) : Prop :=
  (exists p w q, first_version l p w q /\ l' = p ++ lit """version"": """ ++ v ++ c_quote :: q) \/
  ((forall p w q, ~ has_version l p w q) /\
   ((exists p g w q, first_dependency l p g w q /\ l' = p ++ lit """smd-" ++ g ++ lit """: """ ++ v ++ c_quote :: q) \/
    ((forall p g w q, ~ has_dependency l p g w q) /\ l' = l))).

(** The tag for the version [v]. *)
Definition tag_of (v : str) : str := 118%N :: v.

(** *** Precedence and requirements (SemVer 2.0.0, 9-11; the book of cargo on caret requirements) *)

(** The first difference decides; what ends first is before. *)
Inductive lex {A : Type} (same lt : A -> A -> Prop) : list A -> list A -> Prop :=
| lex_end y b : lex same lt [] (y :: b)
| lex_here x y a b : lt x y -> lex same lt (x :: a) (y :: b)
| lex_next x y a b : same x y -> lex same lt a b -> lex same lt (x :: a) (y :: b).

Definition digits (x : str) : Prop := forall c, In c x -> (48 <= c <= 57)%N.
Definition id_before (x y : str) : Prop :=
  (digits x /\ digits y /\ number x < number y) \/ (digits x /\ ~ digits y) \/
  (~ digits x /\ ~ digits y /\ lex eq N.lt x y).
Definition id_same (x y : str) : Prop := x = y \/ (digits x /\ digits y /\ number x = number y).
(** A version is behind its pre-releases. *)
Definition pre_before (a b : list str) : Prop :=
  a <> [] /\ (b = [] \/ lex id_same id_before a b).
Definition precedes (a b : version) : Prop :=
  major a < major b \/ (major a = major b /\ (minor a < minor b \/ (minor a = minor b /\
  (patch a < patch b \/ (patch a = patch b /\ pre_before (pre a) (pre b)))))).
(** The first number that is not 0 stays. *)
Definition compatible (r v : version) : Prop :=
  major v = major r /\ (major r = 0 -> minor v = minor r /\ (minor r = 0 -> patch v = patch r)).

(** *** The index of crates.io: where the entry of a crate is, by the first chars of its name *)
Definition index_path (crate : str) : str :=
  match crate with
  | [] => []
  | [a] => lit "1/" ++ crate
  | [a; b] => lit "2/" ++ crate
  | [a; b; c] => lit "3/" ++ a :: lit "/" ++ crate
  | a :: b :: c :: d :: _ => a :: b :: lit "/" ++ c :: d :: lit "/" ++ crate
  end.

(** There are only such entries. *)
Definition laid_out (index : nat -> str -> option str) : Prop :=
  forall n path t, index n path = Some t -> exists crate, path = index_path crate.

(** *** An excerpt of the files in /repo: smd/Cargo.toml:1-3 and 49-55, smd-core/Cargo.toml:1-4,
    gfm/Cargo.toml:1-4, npm/smd/package.json:1-3 and 66-73 *)
Definition repo : files :=
  {| smd_toml := unlines (map lit
       ["[package]"; "name = ""smd"""; "version = ""0.1.3-pre"" # managed by release.sh"; "";
        "[dependencies.smd-core]"; "version = ""0.1.3-pre"" # managed by release.sh"; "path = ""../smd-core"""; "";
        "[dependencies.gfm]"; "version = ""0.1.3-pre"" # managed by release.sh"; "path = ""../gfm"""; ""]%string);
     core_toml := unlines (map lit
       ["[package]"; "name = ""smd-core"""; "version = ""0.1.3-pre"""; "edition = ""2021"""; ""]%string);
     gfm_toml := unlines (map lit
       ["[package]"; "name = ""gfm"""; "version = ""0.1.3-pre"""; "edition = ""2021"""; ""]%string);
     package_json := unlines (map lit
       ["{"; "    ""name"": ""smd"","; "    ""version"": ""0.1.3-pre"","; "    ""optionalDependencies"": {";
        "        ""smd-darwin-arm64"": ""0.1.3-pre"","; "        ""smd-darwin-x64"": ""0.1.3-pre"""; "    }"; "}"; ""]%string) |}.

(** Their version: 0.1.3-pre. *)
Definition old_version : version := {| major := 0; minor := 1; patch := 3; pre := [lit "pre"] |}.

(** The files in the root of /repo. *)
Definition root_files : list str :=
  map lit [".editorconfig"; ".envrc"; ".gitignore"; "CHANGELOG.md"; "Cargo.lock"; "Cargo.toml"; "LICENSE"; "README.md";
           "flake.lock"; "flake.nix"; "release.sh"; "rust-toolchain.toml"; "rustfmt.toml"]%string.

(** The steps of [publish-binaries] behind the one that prepares the files. *)
Definition publishing (s : step) : Prop :=
  In s [CreateArtifacts; SignRelease; ToGitHub; ToGitHubPre; InstallNode; ToNpm; WheelsLinux; WheelsOthers; WheelsMusl; UploadWheels].

(** Versions as SemVer 2.0.0 has them: three numbers, identifiers behind [-], others behind [+]. *)
Fixpoint dotted (l : list str) : str :=
  match l with
  | [] => []
  | [a] => a
  | a :: l' => a ++ lit "." ++ dotted l'
  end.
Definition id_text (x : str) : Prop :=
  x <> [] /\ forall c, In c x ->
    is_digit c = true \/ (65 <= c <= 90)%N \/ (97 <= c <= 122)%N \/ c = c_minus.
Definition pre_text (x : str) : Prop :=
  id_text x /\ ((forall c, In c x -> is_digit c = true) -> exists n, x = dec n).
Definition semver (s : str) (v : version) : Prop :=
  Forall pre_text (pre v) /\ exists b,
    s = dec (major v) ++ lit "." ++ dec (minor v) ++ lit "." ++ dec (patch v)
        ++ match pre v with [] => [] | l => lit "-" ++ dotted l end ++ b
    /\ (b = [] \/ exists l, l <> [] /\ Forall id_text l /\ b = lit "+" ++ dotted l).
