(** * Platform: the npm packages of the platforms, npm/package.json.tmpl and release.yaml:247-271

    [envsubst] after GNU gettext 0.21 (envsubst.c:subst_from_stdin), npm after npm-install-checks 6. *)
From Coq Require Import Ascii String.
From Verif Require Import Strings Release Shell.
Open Scope list_scope.

(** npm/package.json.tmpl:1-31; the lines behind it, each with its line feed. *)
Definition template_lines : list str := map lit
  [ "{";
    "  ""name"": ""${node_pkg}"",";
    "  ""version"": ""${version}"",";
    "  ""description"": ""Want github-flavoured markdown as a pdf or html for your blog? smd is exactly what you need."",";
    "  ""repository"": {";
    "    ""type"": ""git"",";
    "    ""url"": ""git+https://github.com/flokkq/smd.git""";
    "  },";
    "  ""keywords"": [";
    "    ""smd"",";
    "    ""git"",";
    "    ""markdown"",";
    "    ""gfm"",";
    "    ""rust""";
    "  ],";
    "  ""author"": ""Clemens Weber <office@flokkq.com>"",";
    "  ""license"": ""MIT"",";
    "  ""bugs"": {";
    "    ""url"": ""https://github.com/flokkq/smd/issues""";
    "  },";
    "  ""homepage"": ""https://github.com/flokkq/smd#readme"",";
    "  ""os"": [";
    "    ""${node_os}""";
    "  ],";
    "  ""cpu"": [";
    "    ""${node_arch}""";
    "  ],";
    "  ""publishConfig"": {";
    "    ""access"": ""public""";
    "  }";
    "}" ]%string.
Definition template : str := flat_map (fun l => l ++ [c_nl]) template_lines.

(** The names of variables. *)
Definition name_start (c : char) : bool :=
  ceq c c_under || (N.leb 65 c && N.leb c 90) || (N.leb 97 c && N.leb c 122).
Definition name_char (c : char) : bool := name_start c || is_digit c.

(** [envsubst]: [$name] and [${name}] give the value of the variable, nothing if there is none; everything else stays.
    [Seen]: behind a dollar sign; [Name]: in a name, read backwards, in braces or not. *)
Inductive substate := Copy | Seen | Braced | Name (braces : bool) (n : str).
Definition literally (st : substate) : str :=
  match st with
  | Copy => []
  | Seen => [c_dollar]
  | Braced => [c_dollar; c_lbrace]
  | Name b n => c_dollar :: (if b then [c_lbrace] else []) ++ rev n
  end.
Definition value (env : list (str * str)) (n : str) : str :=
  match find (fun p => str_eqb (fst p) n) env with Some p => snd p | None => [] end.
(** What stands before [c] is settled: [c] itself begins anew. *)
Definition anew (c : char) (rest : substate -> str) : str :=
  if ceq c c_dollar then rest Seen else c :: rest Copy.
Fixpoint subst_go (env : list (str * str)) (st : substate) (s : str) : str :=
  match s with
  | [] => match st with Name false n => value env (rev n) | _ => literally st end
  | c :: r =>
      let next := fun st' => subst_go env st' r in
      match st with
      | Copy => anew c next
      | Seen => if ceq c c_lbrace then next Braced
                else if name_start c then next (Name false [c])
                else literally st ++ anew c next
      | Braced => if name_start c then next (Name true [c]) else literally st ++ anew c next
      | Name b n =>
          if name_char c then next (Name b (c :: n))
          else if b then
            if ceq c c_rbrace then value env (rev n) ++ next Copy else literally st ++ anew c next
          else value env (rev n) ++ anew c next
      end
  end.
Definition envsubst (env : list (str * str)) (s : str) : str := subst_go env Copy s.

(** release.yaml:257, with the version put into the text of the script: the value that the variable gets.  Only
    where the line is still one command, [export] with one word, and nothing in it is substituted. *)
Definition export_line (v : str) : str := lit "export version=""" ++ v ++ lit """".
Definition exported (v : str) : option str :=
  match shell (export_line v) with
  | Some [[e; w]] =>
      match text_of e, text_of w with
      | Some n, Some a => if str_eqb n (lit "export") then strip_prefix (lit "version=") a else None
      | _, _ => None
      end
  | _ => None
  end.

(** release.yaml:253-262: [node_os] and [node_arch]; [node_pkg] in [Release]. *)
Definition environment (b : build) (version : str) : list (str * str) :=
  [ (lit "node_os", field 0 (name b)); (lit "node_arch", field 1 (name b));
    (lit "version", version); (lit "node_pkg", node_pkg b) ].

(** release.yaml:264 *)
Definition package_json (b : build) (tag : str) : option str :=
  match exported (release_version tag) with
  | Some v => Some (envsubst (environment b v) template)
  | None => None
  end.

(** release.yaml:53-150: [TARGET] of the builds, in the order of [matrix]. *)
Definition targets : list string :=
  [ "x86_64-unknown-linux-gnu"; "x86_64-unknown-linux-musl"; "i686-unknown-linux-gnu"; "i686-unknown-linux-musl";
    "aarch64-unknown-linux-gnu"; "aarch64-unknown-linux-musl"; "x86_64-pc-windows-gnu"; "x86_64-pc-windows-msvc";
    "i686-pc-windows-msvc"; "aarch64-pc-windows-msvc"; "x86_64-apple-darwin"; "aarch64-apple-darwin" ]%string.
Definition builds : list (build * string) := combine matrix targets.

(** release.yaml:252, :265-268: the program in the package. *)
Definition package_program (b : build) : str :=
  lit "bin/smd" ++ (if runner_eqb (os b) Windows then lit ".exe" else []).
