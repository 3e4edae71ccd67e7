(** * Release: /repo/release.sh, the versions cargo looks at, /repo/.github/workflows/release.yaml.

    [sed], [cargo] and the runner of the workflow are not in the repository; they are
    modelled after their documentation, as far as the scripts use them. *)
From Coq Require Import Ascii String.
From Verif Require Import Strings Npm.
Open Scope list_scope.

(** ** sed -E -i s/.../.../

    A regular expression of the scripts is a sequence of single chars, [.] and [.*]
    ([.+] is [.] and [.*]), with at most one group. *)
Inductive piece := Lit (c : char) | Dot | Dots.

Record regex := {
  from_start : bool;      (* ^ *)
  before : list piece;
  group : list piece;     (* ( ) *)
  behind : list piece;
  to_end : bool           (* $ *)
}.

Definition chars (s : str) : list piece := map Lit s.

(** All beginnings of [s] that match, with what follows them. *)
Fixpoint matches (p : list piece) (s : str) : list (str * str) :=
  match p with
  | [] => [([], s)]
  | Lit c :: p' =>
      match s with
      | x :: s' => if ceq x c then map (fun m => (x :: fst m, snd m)) (matches p' s') else []
      | [] => []
      end
  | Dot :: p' =>
      match s with
      | x :: s' => map (fun m => (x :: fst m, snd m)) (matches p' s')
      | [] => []
      end
  | Dots :: p' =>
      (fix dots (s : str) : list (str * str) :=
         match s with
         | x :: s' => map (fun m => (x :: fst m, snd m)) (dots s') ++ matches p' s
         | [] => matches p' s
         end) s
  end.

(** A match: the text, the text of the group, what follows. *)
Record found := { whole : str; inner : str; next : str }.

Definition candidates (r : regex) (s : str) : list found :=
  filter (fun m => negb (to_end r) || is_empty (next m))
    (flat_map (fun a =>
       flat_map (fun b =>
         map (fun c => {| whole := fst a ++ fst b ++ fst c; inner := fst b; next := snd c |})
             (matches (behind r) (snd b)))
         (matches (group r) (snd a)))
       (matches (before r) s)).

(** The longest one; of several the first, which has the longest group. *)
Fixpoint longest (l : list found) : option found :=
  match l with
  | [] => None
  | m :: l' =>
      match longest l' with
      | Some m' => if Nat.ltb (length (whole m)) (length (whole m')) then Some m' else Some m
      | None => Some m
      end
  end.

(** The leftmost place that matches, with what is before it. *)
Fixpoint search (r : regex) (s : str) : option (str * found) :=
  match longest (candidates r s) with
  | Some m => Some ([], m)
  | None =>
      if from_start r then None else
      match s with
      | [] => None
      | x :: s' =>
          match search r s' with
          | Some (p, m) => Some (x :: p, m)
          | None => None
          end
      end
  end.

(** The replacement: chars, [&] and [\1]. *)
Inductive part := Char (c : char) | Whole | Group.

(** [None]: a [/] ends the replacement and a newline the command, so that it is another command
    or none; escapes other than [\1], [\&], [\\] and [\/] are not modelled. *)
Fixpoint parts (s : str) : option (list part) :=
  match s with
  | [] => Some []
  | c :: s' =>
      if N.eqb c 47 || ceq c c_nl then None
      else if ceq c c_amp then option_map (cons Whole) (parts s')
      else if ceq c c_bslash then
        match s' with
        | d :: s'' =>
            if N.eqb d 49 then option_map (cons Group) (parts s'')
            else if mem_char d [c_amp; c_bslash; 47%N] then option_map (cons (Char d)) (parts s'')
            else None
        | [] => None
        end
      else option_map (cons (Char c)) (parts s')
  end.

Definition put (m : found) (l : list part) : str :=
  flat_map (fun p => match p with Char c => [c] | Whole => whole m | Group => inner m end) l.

(** One line; the flag [g] replaces on behind each match. No expression here matches the empty
    text, so that [n], the length of the line, is enough. *)
Fixpoint replace_in (n : nat) (g : bool) (r : regex) (l : list part) (s : str) : str :=
  match search r s with
  | Some (p, m) =>
      p ++ put m l ++
      match n with
      | 0 => next m
      | S n' => if g then replace_in n' g r l (next m) else next m
      end
  | None => s
  end.

Definition sed_line (g : bool) (r : regex) (l : list part) (s : str) : str := replace_in (length s) g r l s.

(** The lines of a text; the one behind the last newline counts. *)
Fixpoint lines (s : str) : list str :=
  match s with
  | [] => [[]]
  | c :: s' =>
      if ceq c c_nl then [] :: lines s' else
      match lines s' with
      | l :: ls => (c :: l) :: ls
      | [] => [[c]]
      end
  end.

Fixpoint unlines (ls : list str) : str :=
  match ls with
  | [] => []
  | [l] => l
  | l :: ls' => l ++ c_nl :: unlines ls'
  end.

Definition sed (g : bool) (r : regex) (l : list part) (text : str) : str :=
  unlines (map (sed_line g r l) (lines text)).

(** ** release.sh *)

(** release.sh:14 *)
Definition msg : str := lit "# managed by release.sh".

(** ["${1#v}"] *)
Definition strip_v (tag : str) : str :=
  match tag with
  | c :: t => if N.eqb c 118 then t else tag
  | [] => []
  end.

(** [^version = .* $msg$], release.sh:16-17: the dot in [msg] matches any char. *)
Definition toml_regex : regex :=
  {| from_start := true;
     before := chars (lit "version = ") ++ [Dots] ++ chars (lit " # managed by release") ++ [Dot] ++ chars (lit "sh");
     group := []; behind := []; to_end := true |}.

(** [version = "${1#v}" $msg], release.sh:16-17 *)
Definition toml_text (v : str) : str := lit "version = """ ++ v ++ lit """ " ++ msg.

(** ["version": ".+"], release.sh:18 *)
Definition json_regex : regex :=
  {| from_start := false;
     before := chars (lit """version"": """) ++ [Dot; Dots] ++ chars (lit """");
     group := []; behind := []; to_end := false |}.

Definition json_text (v : str) : str := lit """version"": """ ++ v ++ lit """".

(** ["(smd-.+)": ".+"], release.sh:19 *)
Definition dep_regex : regex :=
  {| from_start := false;
     before := chars (lit """");
     group := chars (lit "smd-") ++ [Dot; Dots];
     behind := chars (lit """: """) ++ [Dot; Dots] ++ chars (lit """");
     to_end := false |}.

Definition dep_text (v : str) : str := lit """\1"": """ ++ v ++ lit """".

(** The files that the commands change. [smd*/Cargo.toml] are the first two. *)
Record files := { smd_toml : str; core_toml : str; gfm_toml : str; package_json : str }.

(** release.sh:16-19, for a tag that is given. [None]: see [parts]. *)
Definition edit (tag : str) (f : files) : option files :=
  let v := strip_v tag in
  match parts (toml_text v), parts (json_text v), parts (dep_text v) with
  | Some t, Some j, Some d =>
      Some {| smd_toml := sed false toml_regex t (smd_toml f);
              core_toml := sed false toml_regex t (core_toml f);
              gfm_toml := sed false toml_regex t (gfm_toml f);
              package_json := sed true dep_regex d (sed false json_regex j (package_json f)) |}
  | _, _, _ => None
  end.

(** *** The commands of the script, release.sh:3-40 *)
Inductive command :=
| CommandV            (* command -v typos, :3 *)
| Sed (file : nat)    (* :16-19 *)
| Cliff (full : bool) (* git-cliff, :22 and :35 *)
| Add                 (* git add -A, :23 *)
| Commit              (* git commit, :23 *)
| Show                (* git show, :24 *)
| TagIt               (* git tag -s -a, :37 *)
| TagCheck.           (* git tag -v, :38 *)

(** The commands that run and the status of the script; [ok] says which of them succeed.
    There is no [set -e]; only [&&] looks at a status, and the last command is [echo]. *)
Definition script (ok : command -> bool) (tag : str) : list command * nat :=
  if is_empty tag then ([CommandV], 0) else
  ([CommandV; Sed 0; Sed 1; Sed 2; Sed 3; Cliff true; Add] ++ (if ok Add then [Commit] else []) ++
   [Show; Cliff false; TagIt; TagCheck], 0).

(** ** Versions, as cargo reads them (SemVer 2.0.0) *)
Record version := { major : nat; minor : nat; patch : nat; pre : list str }.

Definition numeric (s : str) : bool := forallb is_digit s.

(** The number that digits stand for. *)
Fixpoint number_go (acc : nat) (s : str) : nat :=
  match s with
  | [] => acc
  | c :: s' => number_go (10 * acc + N.to_nat (c - 48)) s'
  end.
Definition number (s : str) : nat := number_go 0 s.

Fixpoint str_compare (a b : str) : comparison :=
  match a, b with
  | [], [] => Eq
  | [], _ => Lt
  | _, [] => Gt
  | x :: a', y :: b' => match N.compare x y with Eq => str_compare a' b' | c => c end
  end.

(** Identifiers: numbers by value and below the others, these in ASCII order (SemVer 11.4). *)
Definition id_compare (a b : str) : comparison :=
  match numeric a, numeric b with
  | true, true => Nat.compare (number a) (number b)
  | true, false => Lt
  | false, true => Gt
  | false, false => str_compare a b
  end.

Fixpoint ids_compare (a b : list str) : comparison :=
  match a, b with
  | [], [] => Eq
  | [], _ => Lt
  | _, [] => Gt
  | x :: a', y :: b' => match id_compare x y with Eq => ids_compare a' b' | c => c end
  end.

(** No pre-release is above every pre-release. *)
Definition pre_compare (a b : list str) : comparison :=
  match a, b with
  | [], [] => Eq
  | [], _ => Gt
  | _, [] => Lt
  | _, _ => ids_compare a b
  end.

Definition version_compare (a b : version) : comparison :=
  match Nat.compare (major a) (major b) with
  | Eq => match Nat.compare (minor a) (minor b) with
          | Eq => match Nat.compare (patch a) (patch b) with
                  | Eq => pre_compare (pre a) (pre b)
                  | c => c
                  end
          | c => c
          end
  | c => c
  end.

(** Crate semver 1.0, [matches_caret]: [version = "r"] of a dependency means [^r]. *)
Definition matches_caret (r v : version) : bool :=
  if negb (Nat.eqb (major v) (major r)) then false
  else if Nat.ltb 0 (major r) then
    if negb (Nat.eqb (minor v) (minor r)) then Nat.ltb (minor r) (minor v)
    else if negb (Nat.eqb (patch v) (patch r)) then Nat.ltb (patch r) (patch v)
    else match pre_compare (pre v) (pre r) with Lt => false | _ => true end
  else if Nat.ltb 0 (minor r) then
    if negb (Nat.eqb (minor v) (minor r)) then false
    else if negb (Nat.eqb (patch v) (patch r)) then Nat.ltb (patch r) (patch v)
    else match pre_compare (pre v) (pre r) with Lt => false | _ => true end
  else if negb (Nat.eqb (minor v) (minor r) && Nat.eqb (patch v) (patch r)) then false
  else match pre_compare (pre v) (pre r) with Lt => false | _ => true end.

(** [matches_req] and [pre_is_compatible]: a pre-release only if asked for. *)
Definition matches_req (r v : version) : bool :=
  matches_caret r v &&
  (match pre v with [] => true | _ => false end ||
   (Nat.eqb (major r) (major v) && Nat.eqb (minor r) (minor v) && Nat.eqb (patch r) (patch v) &&
    match pre r with [] => false | _ => true end)).

(** Reading a version; a build (behind [+]) is ignored by comparison and left out. *)
Definition number_of (s : str) : option nat :=
  match s with
  | [] => None
  | c :: s' => if numeric s && (negb (N.eqb c 48) || is_empty s') then Some (number s) else None
  end.

Definition id_chars (s : str) : bool :=
  negb (is_empty s) &&
  forallb (fun c => is_digit c || is_upper c || (N.leb 97 c && N.leb c 122) || ceq c c_minus) s.

Definition pre_id (s : str) : bool :=
  id_chars s && (negb (numeric s) || match number_of s with Some _ => true | None => false end).

Definition read_version (s : str) : option version :=
  let '(s, build_ok) := match split_once c_plus s with
                        | Some (a, b) => (a, forallb id_chars (split [c_dot] b))
                        | None => (s, true)
                        end in
  let '(s, p) := match split_once c_minus s with
                 | Some (a, b) => (a, Some (split [c_dot] b))
                 | None => (s, None)
                 end in
  match split [c_dot] s with
  | [a; b; c] =>
      match number_of a, number_of b, number_of c with
      | Some x, Some y, Some z =>
          let ids := match p with Some l => l | None => [] end in
          if build_ok && forallb pre_id ids
          then Some {| major := x; minor := y; patch := z; pre := ids |} else None
      | _, _, _ => None
      end
  | _ => None
  end.

(** *** The entries [version] of a Cargo.toml: the line in the section with this header *)
Fixpoint version_line (inside : bool) (header : str) (ls : list str) : option str :=
  match ls with
  | [] => None
  | l :: ls' =>
      if starts_with [c_lbrk] l then version_line (str_eqb l header) header ls'
      else if inside && starts_with (lit "version = ") l then Some l
      else version_line inside header ls'
  end.

(** The text in the first pair of quotes. *)
Definition quoted (l : str) : option str :=
  match split_once c_quot l with
  | Some (_, r) => option_map fst (split_once c_quot r)
  | None => None
  end.

Definition version_of (header text : str) : option version :=
  match version_line false header (lines text) with
  | Some l => match quoted l with Some s => read_version s | None => None end
  | None => None
  end.

(** smd depends on smd-core and gfm, by path and version (smd/Cargo.toml:49-55); cargo stops
    if the crate there has no matching version. *)
Definition dependency_ok (header smd crate : str) : bool :=
  match version_of header smd, version_of (lit "[package]") crate with
  | Some r, Some v => matches_req r v
  | _, _ => false
  end.

Definition resolves (f : files) : bool :=
  dependency_ok (lit "[dependencies.smd-core]") (smd_toml f) (core_toml f) &&
  dependency_ok (lit "[dependencies.gfm]") (smd_toml f) (gfm_toml f).

(** ** .github/workflows/release.yaml *)

(** [on: push: tags: "v*.*.*"], :3-6: [*] is any text without slash. *)
Fixpoint glob (p : list piece) (s : str) : bool :=
  match p with
  | [] => is_empty s
  | Dots :: p' =>
      (fix star (s : str) : bool :=
         glob p' s || match s with x :: s' => negb (N.eqb x 47) && star s' | [] => false end) s
  | Lit c :: p' => match s with x :: s' => ceq x c && glob p' s' | [] => false end
  | Dot :: p' => match s with _ :: s' => glob p' s' | [] => false end
  end.

Definition trigger (tag : str) : bool :=
  glob [Lit 118%N; Dots; Lit c_dot; Dots; Lit c_dot; Dots] tag.

(** [github.ref] *)
Definition ref (tag : str) : str := lit "refs/tags/" ++ tag.

(** [RELEASE_VERSION=${GITHUB_REF:11}], :156 *)
Definition release_version (tag : str) : str := skipn 11 (ref tag).

(** The matrix, :53-150 *)
Inductive runner := Ubuntu | Windows | Mac.
Record build := { name : str; os : runner; npm_publish : bool; pypi_publish : bool }.

Definition matrix : list build :=
  [ {| name := lit "linux-x64-glibc"; os := Ubuntu; npm_publish := true; pypi_publish := true |};
    {| name := lit "linux-x64-musl"; os := Ubuntu; npm_publish := false; pypi_publish := true |};
    {| name := lit "linux-x86-glibc"; os := Ubuntu; npm_publish := false; pypi_publish := false |};
    {| name := lit "linux-x86-musl"; os := Ubuntu; npm_publish := false; pypi_publish := true |};
    {| name := lit "linux-arm64-glibc"; os := Ubuntu; npm_publish := true; pypi_publish := true |};
    {| name := lit "linux-arm64-musl"; os := Ubuntu; npm_publish := false; pypi_publish := true |};
    {| name := lit "win32-x64-mingw"; os := Windows; npm_publish := false; pypi_publish := false |};
    {| name := lit "win32-x64-msvc"; os := Windows; npm_publish := true; pypi_publish := true |};
    {| name := lit "win32-x86-msvc"; os := Windows; npm_publish := false; pypi_publish := true |};
    {| name := lit "win32-arm64-msvc"; os := Windows; npm_publish := true; pypi_publish := false |};
    {| name := lit "darwin-x64"; os := Mac; npm_publish := true; pypi_publish := true |};
    {| name := lit "darwin-arm64"; os := Mac; npm_publish := true; pypi_publish := true |} ].

(** The steps of [publish-binaries], :151-308 *)
Inductive step :=
| Checkout | SetVersion | InstallDependencies | InstallRust | BuildUnix | BuildWindows
| PrepareAssets | CreateArtifacts | SignRelease | ToGitHub | ToGitHubPre
| InstallNode | ToNpm | WheelsLinux | WheelsOthers | WheelsMusl | UploadWheels.

Definition binaries_steps : list step :=
  [Checkout; SetVersion; InstallDependencies; InstallRust; BuildUnix; BuildWindows;
   PrepareAssets; CreateArtifacts; SignRelease; ToGitHub; ToGitHubPre;
   InstallNode; ToNpm; WheelsLinux; WheelsOthers; WheelsMusl; UploadWheels].

Definition runner_eqb (a b : runner) : bool :=
  match a, b with Ubuntu, Ubuntu | Windows, Windows | Mac, Mac => true | _, _ => false end.

(** [contains(github.ref, '-')], :220 and others *)
Definition pre_release (tag : str) : bool := contains [c_minus] (ref tag).

(** [matrix.build.OS] *)
Definition os_name (o : runner) : str :=
  match o with Ubuntu => lit "ubuntu-22.04" | Windows => lit "windows-2022" | Mac => lit "macos-14" end.

(** The conditions [if:] of the steps. *)
Definition applies (b : build) (tag : str) (s : step) : bool :=
  match s with
  | BuildUnix => negb (runner_eqb (os b) Windows)
  | BuildWindows => runner_eqb (os b) Windows
  | SignRelease => negb (runner_eqb (os b) Windows)
  | ToGitHub => negb (pre_release tag)
  | ToGitHubPre => pre_release tag
  | InstallNode | ToNpm => npm_publish b
  | WheelsLinux => pypi_publish b && starts_with (lit "linux") (name b)
  | WheelsOthers => pypi_publish b && (starts_with (lit "macos") (os_name (os b)) || starts_with (lit "windows") (os_name (os b)))
  | WheelsMusl => pypi_publish b && ends_with (lit "musl") (os_name (os b))
  | _ => true
  end.

(** [cp {LICENSE,LREADME.md,CHANGELOG.md} release/], :188 *)
Definition copied : list str := [lit "LICENSE"; lit "LREADME.md"; lit "CHANGELOG.md"].

Section Workflow.
(** The files in the root of the commit, and what everything outside does: whether the commands
    of a step succeed, apart from the [cp] above. *)
Variable tree : str -> bool.
Variable ext : build -> step -> bool.
(** Whether the jobs without a model succeed. *)
Variable changelog_ok : bool.

(** [shell: bash] stops at the first command that fails. *)
Definition succeeds (b : build) (s : step) : bool :=
  match s with
  | PrepareAssets => forallb tree copied && ext b s
  | _ => ext b s
  end.

(** The steps that are started, and whether the job succeeds: a step behind one that failed is skipped. *)
Fixpoint run_steps (b : build) (ss : list step) : list step * bool :=
  match ss with
  | [] => ([], true)
  | s :: ss' =>
      if succeeds b s then let (l, ok) := run_steps b ss' in (s :: l, ok)
      else ([s], false)
  end.

Definition leg (tag : str) (b : build) : list step * bool := run_steps b (filter (applies b tag) binaries_steps).

(** [needs: generate-changelog], :49; [fail-fast: false], :52 *)
Definition started (tag : str) (b : build) (s : step) : Prop :=
  trigger tag = true /\ changelog_ok = true /\ In b matrix /\ In s (fst (leg tag b)).

(** [publish-npm] and [publish-pypi], :310 and :341: [needs: publish-binaries], that is all legs. *)
Definition base_packages_start (tag : str) : bool :=
  trigger tag && changelog_ok && forallb (fun b => snd (leg tag b)) matrix.

End Workflow.

(** [cut -d '-' -f n] *)
Definition field (n : nat) (s : str) : str := nth n (split [c_minus] s) [].

(** :252-262 *)
Definition node_pkg (b : build) : str :=
  if runner_eqb (os b) Windows then lit "smd-windows-" ++ field 1 (name b)
  else lit "smd-" ++ field 0 (name b) ++ lit "-" ++ field 1 (name b).

(** npm/smd/package.json: [optionalDependencies] *)
Definition optional_dependencies : list str :=
  map lit ["smd-darwin-arm64"; "smd-darwin-x64"; "smd-linux-arm64"; "smd-linux-x64";
           "smd-windows-arm64"; "smd-windows-x64"]%string.

(** The Debian package: built (:385) and uploaded (:398, :408). *)
Definition deb_built (tag : str) : str := lit "smd-" ++ release_version tag ++ lit ".deb".
Definition deb_uploaded (tag : str) : str :=
  if pre_release tag then lit "smdcliff-" ++ release_version tag ++ lit ".deb"
  else lit "smd-" ++ release_version tag ++ lit ".deb".

(** *** [publish-crates-io], :464-494

    [index n] are the files of the index of crates.io at the [n]th request. *)
(** The answer to [curl -s]. *)
Definition answer (file : option str) : str :=
  match file with Some t => t | None => lit "404: Not Found" end.

(** [grep -q '"vers":"..."']: a dot matches any char. The other chars that are special to
    [grep] do not occur in versions. *)
Definition vers_regex (v : str) : regex :=
  {| from_start := false;
     before := chars (lit """vers"":""") ++ map (fun c => if ceq c c_dot then Dot else Lit c) v ++ chars (lit """");
     group := []; behind := []; to_end := false |}.

Definition grep (r : regex) (text : str) : bool :=
  existsb (fun l => match search r l with Some _ => true | None => false end) (lines text).

(** [until curl ... | grep ...; do sleep 5; done]: the number of requests, if it ends within [fuel] of them. *)
Fixpoint wait (fuel : nat) (index : nat -> str -> option str) (file v : str) (n : nat) : option nat :=
  match fuel with
  | 0 => None
  | S f => if grep (vers_regex v) (answer (index n file)) then Some (n + 1)
           else wait f index file v (n + 1)
  end.

Definition crates_wait (fuel : nat) (index : nat -> str -> option str) (tag : str) : option nat :=
  match wait fuel index (lit "gi/t-/smd-core") (release_version tag) 0 with
  | Some n => wait fuel index (lit "gi/t-/gfm") (release_version tag) n
  | None => None
  end.
