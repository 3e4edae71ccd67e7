(** * NpmBuild: the npm package smd as the workflow builds and publishes it, release.yaml:310-338 and npm/smd/package.json

    tsup after version 8 (src/load.ts, src/index.ts), yarn after version 4 ([packUtils.ts]).  Files are named by
    their paths from the root of the repository; their texts do not matter here. *)
From Coq Require Import Ascii String.
From Verif Require Import Strings.
Open Scope list_scope.

Definition tree := list (list str).
Fixpoint path_eqb (p q : list str) : bool :=
  match p, q with
  | [], [] => true
  | a :: p', b :: q' => str_eqb a b && path_eqb p' q'
  | _, _ => false
  end.
Definition has (t : tree) (p : list str) : bool := existsb (path_eqb p) t.

(** The directory of the package: [working-directory: npm/smd], release.yaml:324. *)
Definition package_dir : list str := [lit "npm"; lit "smd"].

(** ** tsup *)

(** One entry of a configuration: files of [src] without their ending, the directory of the results, the kinds of
    modules, and whether declarations are made.  Simplified: other options; files in subdirectories of [src]. *)
Inductive kind := Esm | Cjs.
Record config := Config { entries : list str; out_dir : list str; formats : list kind; declarations : bool }.

(** src/load.ts [loadTsupConfig]: the names of the file, in this order. *)
Definition config_names : list str :=
  map lit ["tsup.config.ts"; "tsup.config.cts"; "tsup.config.mts"; "tsup.config.js"; "tsup.config.cjs"; "tsup.config.mjs";
           "tsup.config.json"]%string.

Section Build.
(** What a file of this path says; what the first file says that is found above the root of the repository, if
    there is one. *)
Variable says : list str -> list config.
Variable above : option (list config).

(** joycon: it looks in the directory and then in those above.  It would also take the key tsup of a package.json;
    npm/smd/package.json:1-81 has none. *)
Fixpoint find_in (t : tree) (dir : list str) (names : list str) : option (list config) :=
  match names with
  | [] => None
  | n :: names' => if has t (dir ++ [n]) then Some (says (dir ++ [n])) else find_in t dir names'
  end.
Fixpoint search (t : tree) (dirs : list (list str)) : option (list config) :=
  match dirs with
  | [] => above
  | d :: dirs' => match find_in t d config_names with Some c => Some c | None => search t dirs' end
  end.

(** Without a file there is one configuration and it has no entries: package.json:32 has [tsup] without arguments. *)
Definition configs (t : tree) : list config :=
  match search t [package_dir; [lit "npm"]; []] with
  | Some cs => cs
  | None => [Config [] [lit "dist"] [Cjs] false]
  end.

(** src/index.ts [normalizeOptions]: without entries (No input files) and if one is missing tsup fails. *)
Definition sound (t : tree) (c : config) : bool :=
  match entries c with
  | [] => false
  | es => forallb (fun e => has t (package_dir ++ [lit "src"; e ++ lit ".ts"])) es
  end.

(** The files for an entry; the endings are those for [type: module], package.json:5. *)
Definition products (c : config) (e : str) (k : kind) : list (list str) :=
  let at_ x := package_dir ++ out_dir c ++ [e ++ lit x] in
  match k with
  | Esm => at_ ".js"%string :: (if declarations c then [at_ ".d.ts"%string] else [])
  | Cjs => at_ ".cjs"%string :: (if declarations c then [at_ ".d.cts"%string] else [])
  end.
Definition results (c : config) : list (list str) :=
  flat_map (fun e => flat_map (products c e) (formats c)) (entries c).

(** yarn build: the tree behind it, or None if it fails. *)
Definition tsup (t : tree) : option tree :=
  if forallb (sound t) (configs t) then Some (t ++ flat_map results (configs t)) else None.

(** ** The package *)

(** package.json:6-9: main, module and bin; yarn takes these files if they exist. *)
Definition entry_points : list (list str) :=
  [map lit ["lib"; "cjs"; "index.d.cts"]%string; map lit ["lib"; "esm"; "index.d.ts"]%string; map lit ["lib"; "cli"; "cli.js"]%string].

(** [packUtils.ts]: the files of these names are always taken, with any ending. *)
Definition always (n : str) : bool :=
  str_eqb n (lit "package.json") ||
  existsb (fun x => str_eqb (map to_lower_c n) x || starts_with (x ++ lit ".") (map to_lower_c n))
    (map lit ["readme"; "license"; "licence"; "changelog"]%string).

(** [files: lib], package.json:25-27: what is in the package, by paths in it. *)
Definition taken (p : list str) : bool :=
  match p with
  | [n] => always n || str_eqb n (lit "lib")
  | d :: _ => str_eqb d (lit "lib")
  | [] => false
  end || existsb (path_eqb p) entry_points.

Definition in_package (p : list str) : list (list str) :=
  match p with
  | a :: b :: q => if str_eqb a (lit "npm") && str_eqb b (lit "smd") && taken q then [q] else []
  | _ => []
  end.
Definition pack (t : tree) : tree := flat_map in_package t.

(** ** The job publish-npm, release.yaml:325-336; bash stops at the first command that fails *)
Inductive command := SetToken | SetRegistry | Install | Build | CopyReadme | CopyChangelog | Publish.

(** Which commands succeed, apart from the reasons of their own that [Build] and the copies have to fail. *)
Variable ok : command -> bool.

Definition copy (t : tree) (n : str) : option tree :=
  if has t [n] then Some (t ++ [package_dir ++ [n]]) else None.

(** The package that is published, if one is. *)
Definition publish_npm (t : tree) : option tree :=
  if ok SetToken && ok SetRegistry && ok Install && ok Build then
    match tsup t with
    | Some t1 =>
        if ok CopyReadme then
          match copy t1 (lit "README.md") with
          | Some t2 =>
              if ok CopyChangelog then
                match copy t2 (lit "CHANGELOG.md") with
                | Some t3 => if ok Publish then Some (pack t3) else None
                | None => None
                end
              else None
          | None => None
          end
        else None
    | None => None
    end
  else None.

End Build.

(** /repo/npm and the files that are copied. *)
Definition checkout : tree :=
  map (fun n => [lit n]) ["README.md"; "CHANGELOG.md"; "LICENSE"; "Cargo.toml"; "release.sh"]%string ++
  [[lit "npm"; lit "package.json.tmpl"]] ++
  map (fun n => package_dir ++ [lit n]) [".gitignore"; ".yarnrc.yml"; "package.json"]%string ++
  map (fun n => package_dir ++ [lit "src"; lit n])
    ["cli.ts"; "getExePath.ts"; "index.ts"; "options.ts"; "optionsToStringArgs.ts"]%string ++
  [package_dir ++ map lit [".yarn"; "releases"; "yarn-4.1.0.cjs"]%string].
