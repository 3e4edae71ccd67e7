(** * SpecIgnore: which files stay out of a release, without patterns.

    For the claims C125 and C126; nothing of [Ignore] is used. *)
From Coq Require Import Ascii String.
From Verif Require Import Strings.
Open Scope list_scope.

(** How a file or a directory can be described whose name is [n] and that is in the directory [d]. *)
Inductive shape :=
| Called (n : str)               (* it has this name *)
| Folder (n : str)               (* it is a directory and has this name *)
| Ends (e : str)                 (* its name ends with this *)
| Begins (b : str)               (* its name begins with this *)
| Wrapped (b e : str)            (* both, one behind the other *)
| At (p : list str)              (* it is at this place *)
| FolderAt (p : list str)        (* it is a directory at this place *)
| BeginsIn (d : list str) (b : str)
| EndsIn (d : list str) (e : str)
| Compiled                       (* .pyc, .pyo, .pyd *)
| Report.                        (* a report of node, with four numbers *)

(** A text that begins with a digit. *)
Definition number (x : str) : Prop := exists c y, x = c :: y /\ (48 <= c <= 57)%N.

Definition holds (s : shape) (d : list str) (n : str) (is_dir : Prop) : Prop :=
  match s with
  | Called m => n = m
  | Folder m => n = m /\ is_dir
  | Ends e => exists x, n = x ++ e
  | Begins b => exists x, n = b ++ x
  | Wrapped b e => exists x, n = b ++ x ++ e
  | At p => d ++ [n] = p
  | FolderAt p => d ++ [n] = p /\ is_dir
  | BeginsIn p b => d = p /\ exists x, n = b ++ x
  | EndsIn p e => d = p /\ exists x, n = x ++ e
  | Compiled => exists x, n = x ++ lit ".pyc" \/ n = x ++ lit ".pyo" \/ n = x ++ lit ".pyd"
  | Report => exists a b c e, number a /\ number b /\ number c /\ number e /\
      n = lit "report." ++ a ++ lit "." ++ b ++ lit "." ++ c ++ lit "." ++ e ++ lit ".json"
  end.

(** Of the whole repository. *)
Definition everywhere : list shape :=
  map (fun x => Called (lit x))
    [".DS_Store"; "desktop.ini"; "Session.vim"; ".cproject"; ".idea"; ".vscode"; ".project"; ".favorites.json";
     ".valgrindrc"; ".cargo"; "config.mk"; "config.stamp"; "no_llvm_build"; "tags"; "TAGS"; "node_modules"]%string ++
  map (fun x => Folder (lit x)) [".settings"; ".vs"; ".direnv"; "build"; "__pycache__"]%string ++
  map (fun x => Ends (lit x)) [".html"; ".pdf"; ".swp"; ".swo"; ".iml"; "~"; "$py.class"]%string ++
  map (fun x => Begins (lit x)) ["#"; ".#"; "tags."; "TAGS."]%string ++
  [Wrapped (lit "#") (lit "#"); Compiled] ++
  map (fun x => At [lit x]) ["logs"; "config.toml"; "Makefile"; "unicode-downloads"; "target"]%string ++
  map (fun x => FolderAt [lit x]) ["dl"; "doc"; "inst"; "llvm"; "mingw-build"; "build-rust-analyzer"; "dist"; "obj"]%string ++
  [At (map lit ["src"; "bootstrap"; "target"]%string); At (map lit ["src"; "tools"; "x"; "target"]%string);
   BeginsIn [] (lit "rustc-ice"); EndsIn (map lit ["tests"; "rustdoc-gui"; "src"]%string) (lit ".lock")].

(** Of npm/smd, where the package for npm is built. *)
Definition in_npm : list shape :=
  map (fun x => Called (lit x))
    ["lib"; "logs"; "pids"; "lib-cov"; "coverage"; ".nyc_output"; ".grunt"; "bower_components"; ".lock-wscript"; ".npm";
     ".eslintcache"; ".stylelintcache"; ".node_repl_history"; ".yarn-integrity"; ".env"; ".env.development.local";
     ".env.test.local"; ".env.production.local"; ".env.local"; ".cache"; ".parcel-cache"; ".next"; "out"; ".nuxt"; "dist";
     ".temp"; ".docusaurus"; ".tern-port"; ".vscode-test"]%string ++
  map (fun x => Folder (lit x))
    ["node_modules"; "jspm_packages"; "web_modules"; ".rpt2_cache"; ".rts2_cache_cjs"; ".rts2_cache_es"; ".rts2_cache_umd";
     ".cache"; ".serverless"; ".fusebox"; ".dynamodb"]%string ++
  map (fun x => Ends (lit x)) [".log"; ".pid"; ".seed"; ".pid.lock"; ".lcov"; ".tsbuildinfo"; ".tgz"]%string ++
  map (fun x => Begins (lit x))
    ["npm-debug.log"; "yarn-debug.log"; "yarn-error.log"; "lerna-debug.log"; ".pnpm-debug.log"; ".pnp."]%string ++
  [Report] ++
  map (fun '(a, b) => At [lit a; lit b])
    [("build", "Release"); (".vuepress", "dist"); (".yarn", "cache"); (".yarn", "unplugged");
     (".yarn", "build-state.yml"); (".yarn", "install-state.gz")]%string.

(** Of pypi, where the wheels for Python are built. *)
Definition in_pypi : list shape := [Called (lit ".venv"); Called (lit "wheels")].

Definition shapes : list (list str * shape) :=
  map (pair []) everywhere ++ map (pair [lit "npm"; lit "smd"]) in_npm ++ map (pair [lit "pypi"]) in_pypi.

(** Two places are exceptions: they stem from the repository of rustc, as most of the file does. *)
Definition exempt (p : list str) (is_dir : Prop) : Prop :=
  p = map lit ["tests"; "run-make"; "thumb-none-qemu"; "example"; ".cargo"]%string \/
  (p = map lit ["compiler"; "rustc_mir_build"; "src"; "build"]%string /\ is_dir).

(** The file itself or a directory it is in is described. *)
Definition left_out (p : list str) : Prop :=
  exists d n r, p = d ++ n :: r /\ ~ exempt (d ++ [n]) (r <> []) /\
    exists b s d', In (b, s) shapes /\ d = b ++ d' /\ holds s d' n (r <> []).

(** The path of a file as git writes it; names have no slash. *)
Fixpoint joined (l : list str) : str :=
  match l with
  | [] => []
  | [n] => n
  | n :: l' => n ++ lit "/" ++ joined l'
  end.
Definition named (l : list str) : Prop := l <> [] /\ Forall (fun n => ~ In 47%N n) l.

(** What cargo, yarn, maturin and Python write when something is built. *)
Definition built (p : list str) : Prop :=
  exists r, r <> [] /\
    (p = lit "target" :: r \/ p = lit "npm" :: lit "smd" :: lit "lib" :: r \/ p = lit "pypi" :: lit "wheels" :: r \/
     exists d, p = d ++ lit "node_modules" :: r \/ p = d ++ lit "__pycache__" :: r).

(** A file that a test left in the directory of smd-core. *)
Definition leftover (n : str) : list str := [lit "smd-core"; n].
Definition of_tests : list str := [lit "test_file.txt"; lit "decode_test_file.txt"].
