(** * Ignore: which files git leaves out of the commit of a release.

    release.sh:23 runs [git add -A], which takes every file below the root of the repository that is
    in the index or that no .gitignore excludes.  Here are the three .gitignore files of /repo, line by
    line, and an interpreter for them after gitignore(5) and the source of git (dir.c, wildmatch.c).
    Simplified: git matches bytes, here chars are matched, which makes a difference for [?] and for sets in
    brackets and other than ASCII only; classes like [[:alpha:]] and sets with a slash are not modelled, no file
    has one (apart from these, the interpreter was compared with git on random patterns and paths); there are
    no other sources of patterns ([.git/info/exclude], [core.excludesFile], further .gitignore files). *)
From Coq Require Import Ascii String.
From Verif Require Import Strings.
From Verif Require Prepare.
Open Scope list_scope.

(** ** The files *)

(** /repo/.gitignore:1-101 *)
Definition root_lines : list str := map lit [
    "# This file should only ignore things that are generated during a `x.py` build,";
    "# generated by common IDEs, and optional files controlled by the user that";
    "# affect the build (such as config.toml).";
    "# In particular, things like `mir_dump` should not be listed here; they are only";
    "# created during manual debugging and many people like to clean up instead of";
    "# having  ignore such leftovers. You can use `.git/info/exclude` to";
    "# configure your local ignore list."; ""; "## File system"; ".DS_Store"; "desktop.ini"; ""; "## logs";
    "/logs"; ""; "## Editor"; "*.swp"; "*.swo"; "Session.vim"; ".cproject"; ".idea"; "*.iml"; ".vscode";
    ".project"; ".favorites.json"; ".settings/"; ".vs/"; ""; "## Tool"; ".valgrindrc"; ".cargo"; ".direnv/";
    "# Included because it is part of the test case"; "!/tests/run-make/thumb-none-qemu/example/.cargo"; "";
    "## Configuration"; "/config.toml"; "/Makefile"; "config.mk"; "config.stamp"; "no_llvm_build"; "";
    "## Build"; "/dl/"; "/doc/"; "/inst/"; "/llvm/"; "/mingw-build/"; "build/";
    "!/compiler/rustc_mir_build/src/build/"; "/build-rust-analyzer/"; "/dist/"; "/unicode-downloads";
    "/target"; "/src/bootstrap/target"; "/src/tools/x/target";
    "# Created by default with `src/ci/docker/run.sh`"; "/obj/"; "/rustc-ice*"; ""; "## Temporary files"; "*~";
    "\#*"; "\#*\#"; ".#*"; ""; "## Tags"; "tags"; "tags.*"; "TAGS"; "TAGS.*"; ""; "## Python"; "__pycache__/";
    "*.py[cod]"; "*$py.class"; ""; "## Node"; "node_modules"; ""; "## Rustdoc GUI tests";
    "tests/rustdoc-gui/src/**.lock"; ""; "# Before adding new lines, see the comment at the top."; ""; "";
    "# Added by cargo"; "#"; "# already existing elements were commented out"; ""; "#/target"; ""; "";
    "# Added by cargo"; "#"; "# already existing elements were commented out"; ""; "#/target"; ""; "*.html";
    "*.pdf"]%string.

(** /repo/npm/smd/.gitignore:1-133 *)
Definition npm_lines : list str := map lit [
    "# Typescript build artifacts"; "lib"; ""; "# Logs"; "logs"; "*.log"; "npm-debug.log*"; "yarn-debug.log*";
    "yarn-error.log*"; "lerna-debug.log*"; ".pnpm-debug.log*"; "";
    "# Diagnostic reports (https://nodejs.org/api/report.html)"; "report.[0-9]*.[0-9]*.[0-9]*.[0-9]*.json"; "";
    "# Runtime data"; "pids"; "*.pid"; "*.seed"; "*.pid.lock"; "";
    "# Directory for instrumented libs generated by jscoverage/JSCover"; "lib-cov"; "";
    "# Coverage directory used by tools like istanbul"; "coverage"; "*.lcov"; ""; "# nyc test coverage";
    ".nyc_output"; "";
    "# Grunt intermediate storage (https://gruntjs.com/creating-plugins#storing-task-files)"; ".grunt"; "";
    "# Bower dependency directory (https://bower.io/)"; "bower_components"; ""; "# node-waf configuration";
    ".lock-wscript"; ""; "# Compiled binary addons (https://nodejs.org/api/addons.html)"; "build/Release"; "";
    "# Dependency directories"; "node_modules/"; "jspm_packages/"; "";
    "# Snowpack dependency directory (https://snowpack.dev/)"; "web_modules/"; ""; "# TypeScript cache";
    "*.tsbuildinfo"; ""; "# Optional npm cache directory"; ".npm"; ""; "# Optional eslint cache";
    ".eslintcache"; ""; "# Optional stylelint cache"; ".stylelintcache"; ""; "# Microbundle cache";
    ".rpt2_cache/"; ".rts2_cache_cjs/"; ".rts2_cache_es/"; ".rts2_cache_umd/"; ""; "# Optional REPL history";
    ".node_repl_history"; ""; "# Output of 'npm pack'"; "*.tgz"; ""; "# Yarn Integrity file";
    ".yarn-integrity"; ""; "# dotenv environment variable files"; ".env"; ".env.development.local";
    ".env.test.local"; ".env.production.local"; ".env.local"; "";
    "# parcel-bundler cache (https://parceljs.org/)"; ".cache"; ".parcel-cache"; ""; "# Next.js build output";
    ".next"; "out"; ""; "# Nuxt.js build / generate output"; ".nuxt"; "dist"; ""; "# Gatsby files"; ".cache/";
    "# Comment in the public line in if your project uses Gatsby and not Next.js";
    "# https://nextjs.org/blog/next-9-1#public-directory-support"; "# public"; ""; "# vuepress build output";
    ".vuepress/dist"; ""; "# vuepress v2.x temp and cache directory"; ".temp"; ".cache"; "";
    "# Docusaurus cache and generated files"; ".docusaurus"; ""; "# Serverless directories"; ".serverless/";
    ""; "# FuseBox cache"; ".fusebox/"; ""; "# DynamoDB Local files"; ".dynamodb/"; ""; "# TernJS port file";
    ".tern-port"; ""; "# Stores VSCode versions used for testing VSCode extensions"; ".vscode-test"; "";
    "# yarn berry"; ".yarn/cache"; ".yarn/unplugged"; ".yarn/build-state.yml"; ".yarn/install-state.gz";
    ".pnp.*"]%string.

(** /repo/pypi/.gitignore:1-5 *)
Definition pypi_lines : list str := map lit [
    "# venv dir which might be present during testing"; ".venv"; ""; "# where the build artifacts go";
    "wheels"]%string.

(** ** Patterns, gitignore(5) *)

(** What stands for one or several chars of a name. *)
Inductive token :=
| One                                            (* ? *)
| Many                                           (* * *)
| Char (c : char)
| Set_ (not : bool) (ranges : list (char * char)). (* [a-z] *)

(** Between two slashes: a pattern for one name, or [**] for any number of names. *)
Inductive segment := Deep | Name (ts : list token).

Record rule := Rule {
  base : list str;        (* the directory of the .gitignore *)
  keep : bool;            (* the line begins with an exclamation mark *)
  dir_only : bool;        (* it ends with a slash *)
  anchored : bool;        (* it has another slash *)
  pattern : list segment }.

(** What follows [[] or [[!], up to the bracket that ends the set; a bracket at the beginning and what is
    behind a backslash stand for themselves.  None if there is no such bracket.  [prev] is the char a range
    would begin with. *)
Fixpoint set_of (first : bool) (prev : option char) (s : str) : option (list (char * char) * str) :=
  match s with
  | [] => None
  | c :: s1 =>
      let single x r := option_map (fun '(l, t) => ((x, x) :: l, t)) (set_of false (Some x) r) in
      if ceq c c_rbrk && negb first then Some ([], s1)
      else if ceq c c_bslash then match s1 with x :: r => single x r | [] => None end
      else match prev, s1 with
           | Some a, b :: r =>
               if ceq c c_minus && negb (ceq b c_rbrk) && negb (ceq b c_bslash)
               then option_map (fun '(l, t) => ((a, b) :: l, t)) (set_of false None r)
               else single c s1
           | _, _ => single c s1
           end
  end.

(** The tokens of a pattern for a name; None if it fits nothing: a backslash at the end, a set without an end. *)
Fixpoint tokens (fuel : nat) (s : str) : option (list token) :=
  match fuel, s with
  | _, [] => Some []
  | O, _ => None
  | S n, c :: s1 =>
      if ceq c c_star then option_map (cons Many) (tokens n s1)
      else if ceq c 63%N then option_map (cons One) (tokens n s1)
      else if ceq c c_bslash then match s1 with x :: r => option_map (cons (Char x)) (tokens n r) | [] => None end
      else if ceq c c_lbrk then
        let '(neg, s2) := match s1 with
                          | x :: r => if ceq x c_bang || ceq x c_caret then (true, r) else (false, s1)
                          | [] => (false, s1) end in
        match set_of true None s2 with
        | Some (l, r) => option_map (cons (Set_ neg l)) (tokens n r)
        | None => None
        end
      else option_map (cons (Char c)) (tokens n s1)
  end.

Definition segment_of (s : str) : option segment :=
  if str_eqb s (lit "**") then Some Deep else option_map Name (tokens (length s) s).

Fixpoint segments (l : list str) : option (list segment) :=
  match l with
  | [] => Some []
  | s :: l' => match segment_of s, segments l' with
               | Some x, Some xs => Some (x :: xs)
               | _, _ => None
               end
  end.

(** dir.c [trim_trailing_spaces]: spaces at the end do not count, if no backslash is before them. *)
Fixpoint trim (s : str) : str :=
  match s with
  | [] => []
  | c :: s1 =>
      if ceq c c_bslash then match s1 with x :: r => c :: x :: trim r | [] => [c] end
      else let r := trim s1 in
           if ceq c c_sp && is_empty r then [] else c :: r
  end.

Fixpoint on_slashes (s : str) : list str :=
  match s with
  | [] => [[]]
  | c :: s' => if ceq c 47%N then [] :: on_slashes s'
               else match on_slashes s' with x :: l => (c :: x) :: l | [] => [[c]] end
  end.

(** dir.c [parse_path_pattern]: one line. *)
Definition rule_of_line (dir : list str) (line : str) : option rule :=
  if starts_with (lit "#") line then None else
  let l := trim line in
  let '(neg, l1) := match l with c :: r => if ceq c c_bang then (true, r) else (false, l) | [] => (false, l) end in
  let '(d, l2) := if ends_with (lit "/") l1 then (true, removelast l1) else (false, l1) in
  if is_empty l2 then None else
  let a := existsb (fun c => ceq c 47%N) l2 in
  let l3 := match l2 with c :: r => if ceq c 47%N then r else l2 | [] => l2 end in
  match segments (on_slashes l3) with
  | Some p => Some (Rule dir neg d a p)
  | None => None
  end.

Definition rules_of (dir : list str) (ls : list str) : list rule :=
  flat_map (fun l => match rule_of_line dir l with Some r => [r] | None => [] end) ls.

(** The rules of a file stand behind those of the directories above it. *)
Definition rules : list rule :=
  rules_of [] root_lines ++ rules_of [lit "npm"; lit "smd"] npm_lines ++ rules_of [lit "pypi"] pypi_lines.

(** ** What a pattern fits, wildmatch.c *)
Definition in_set (neg : bool) (l : list (char * char)) (c : char) : bool :=
  xorb neg (existsb (fun '(a, b) => N.leb a c && N.leb c b) l).

Fixpoint fits_name (ts : list token) (s : str) : bool :=
  match ts with
  | [] => is_empty s
  | Many :: ts' =>
      (fix any (s : str) : bool :=
         fits_name ts' s || match s with [] => false | _ :: s' => any s' end) s
  | t :: ts' =>
      match s with
      | [] => false
      | c :: s' => match t with
                   | One => true
                   | Char x => ceq x c
                   | Set_ neg l => in_set neg l c
                   | Many => false
                   end && fits_name ts' s'
      end
  end.

Definition none {A} (l : list A) : bool := match l with [] => true | _ => false end.

(** [**] stands for any number of names; at the end for one at least. *)
Fixpoint fits_names (ps : list segment) (p : list str) : bool :=
  match ps with
  | [] => none p
  | Deep :: ps' =>
      match ps' with
      | [] => negb (none p)
      | _ => (fix any (p : list str) : bool :=
                fits_names ps' p || match p with [] => false | _ :: p' => any p' end) p
      end
  | Name ts :: ps' => match p with [] => false | n :: p' => fits_name ts n && fits_names ps' p' end
  end.

(** The names behind those of a directory. *)
Fixpoint below (dir p : list str) : option (list str) :=
  match dir, p with
  | [], _ => Some p
  | d :: dir', n :: p' => if str_eqb d n then below dir' p' else None
  | _, [] => None
  end.

(** dir.c [last_matching_pattern_from_list]: a pattern without a slash is for the last name. *)
Definition fits (r : rule) (p : list str) (is_dir : bool) : bool :=
  (is_dir || negb (dir_only r)) &&
  match below (base r) p with
  | Some (n :: q) => fits_names (pattern r) (if anchored r then n :: q else [last q n])
  | _ => false
  end.

(** The last rule that fits decides. *)
Fixpoint excluded (rs : list rule) (p : list str) (is_dir : bool) : option bool :=
  match rs with
  | [] => None
  | r :: rs' => match excluded rs' p is_dir with
                | Some b => Some b
                | None => if fits r p is_dir then Some (negb (keep r)) else None
                end
  end.

(** dir.c [is_excluded]: below a directory that is excluded everything is.  [rest] are the names behind [dir]. *)
Fixpoint ignored_below (rs : list rule) (dir rest : list str) : bool :=
  match rest with
  | [] => false
  | n :: rest' =>
      match excluded rs (dir ++ [n]) (negb (none rest')) with
      | Some true => true
      | _ => ignored_below rs (dir ++ [n]) rest'
      end
  end.

(** A file, by the names of the directories it is in and its own. *)
Definition ignored (p : list str) : bool := ignored_below rules [] p.

(** ** git add -A, release.sh:23 *)

(** A path as git writes it. *)
Definition names_of (p : str) : list str := on_slashes p.

(** Of the files in the working tree those are added which are in the index, and those which are not ignored. *)
Definition added (index disk : Prepare.tree) : Prepare.tree :=
  filter (fun e => match Prepare.get index (fst e) with
                   | Some _ => true
                   | None => negb (ignored (names_of (fst e)))
                   end) disk.

(** release.sh, with all files that are on the disk; the index is that of the last commit.  [sed] and git-cliff
    change files that are in the index or, if they are not, would be added. *)
Definition release_disk (upper : char -> str) (hash_of : list Prepare.snapshot -> str -> Prepare.tree -> str)
    (day : str) (ok : Release.command -> bool) (tag : str) (r : Prepare.repo) : Prepare.repo :=
  Prepare.release_sh upper hash_of day ok tag
    (Prepare.Repo (Prepare.log r) (Prepare.tags r) (added (Prepare.head_tree (Prepare.log r)) (Prepare.work r))).
