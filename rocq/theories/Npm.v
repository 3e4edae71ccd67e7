(** * Npm: the npm package, /repo/npm/smd/src/{optionsToStringArgs,options,getExePath,index,cli}.ts.

    JavaScript values are modelled as far as the type [Options] (options.ts)
    lets them occur: booleans, strings, arrays of strings, and, since it is
    [Partial], [undefined]; also [null], which the code provides for.  An object
    is the list of its entries in the order of [Object.entries].  A string is a
    list of chars. *)
From Coq Require Import Ascii String.
From Verif Require Import Strings StringsFacts.
Open Scope list_scope.

Inductive js :=
| JTrue | JFalse | JNull | JUndefined
| JString (s : str)
| JArray (ss : list str).

(** What is pushed to [args]: strings, or [undefined] as it is. *)
Inductive arg := AString (s : str) | AUndefined.

Definition is_upper (c : char) : bool := N.leb 65 c && N.leb c 90.

Section Lower.
(** [toLowerCase] of the chars outside ASCII. *)
Variable unicode : char -> str.

Definition js_lower (s : str) : str :=
  flat_map (fun c => if N.ltb c 128 then [to_lower_c c] else unicode c) s.

(** [key.replace(/([A-Z])/g, "-$1")], optionsToStringArgs.ts:14. *)
Definition hyphens (s : str) : str :=
  flat_map (fun c => if is_upper c then [c_minus; c] else [c]) s.

(** optionsToStringArgs.ts:14 *)
Definition hyphen_case (key : str) : str := js_lower (hyphens key).

Definition flag (key : str) : str := lit "--" ++ hyphen_case key.

(** optionsToStringArgs.ts:16-26, one entry. *)
Definition entry_args (e : str * js) : list arg :=
  let (key, value) := e in
  match value with
  | JArray vs => flat_map (fun v => [AString (flag key); AString v]) vs
  | JTrue => [AString (flag key)]
  | JFalse => []
  | JNull => []
  | JString v => [AString (flag key); AString v]
  | JUndefined => [AString (flag key); AUndefined]
  end.

(** optionsToStringArgs.ts:10-30 [optionsToStringArgs]. *)
Definition options_to_args (options : list (str * js)) : list arg := flat_map entry_args options.

End Lower.

(** options.ts:1-101: the keys of [Options]. *)
Definition option_keys : list str :=
  map lit ["help"; "version"; "verbose"; "bumpedVersion"; "latest"; "current"; "unreleased";
           "topoOrder"; "useBranchTags"; "noExec"; "context"; "init"; "bump"; "config"; "workdir";
           "repository"; "includePath"; "excludePath"; "tagPattern"; "withCommit";
           "withTagMessage"; "ignoreTags"; "countTags"; "skipCommit"; "prepend"; "output"; "tag";
           "body"; "fromContext"; "strip"; "sort"; "githubToken"; "githubRepo"; "gitlabToken";
           "gitlabRepo"; "giteaToken"; "giteaRepo"; "bitbucketToken"; "bitbucketRepo"]%string.

(** getExePath.ts:11-30: the module that is resolved.  [platform] and [arch] are
    those of node. *)
Definition exe_module (platform arch : str) : str :=
  let windows := str_eqb platform (lit "win32") || str_eqb platform (lit "cygwin") in
  let os := if windows then lit "windows" else platform in
  let ext := if windows then lit ".exe" else [] in
  lit "git-cliff-" ++ os ++ lit "-" ++ arch ++ lit "/bin/git-cliff" ++ ext.

(** How the program that was started ended. *)
Inductive ending := Exited (code : nat) | Killed | NotStarted.

(** execa 8 (package.json:52), option [reject] not given: the promise is resolved
    exactly if the program exited with 0. *)
Inductive promise := Resolved (exit_code : option nat) | Rejected.
Definition execa (e : ending) : promise :=
  match e with Exited 0 => Resolved (Some 0) | _ => Rejected end.

(** cli.ts:5-12: [process.exit(processResult.exitCode ?? 0)]; a rejection that
    nobody handles ends node with 1. *)
Definition cli_status (e : ending) : nat :=
  match execa e with
  | Resolved (Some n) => n
  | Resolved None => 0
  | Rejected => 1
  end.
