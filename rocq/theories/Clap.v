(** * Clap: the command line, /repo/smd/src/args.rs:10-104.

    The definitions of the arguments are those of the attributes in args.rs; how
    a list of words is read with them is clap 4.5 (Cargo.lock), modelled after its
    source (clap_builder, [Parser::parse], [parse_long_arg], [parse_short_arg],
    [react], [Validator::validate]).  Words are valid UTF-8.  The texts that clap
    prints are not modelled, only which of them it prints. *)
From Coq Require Import Ascii String.
From Verif Require Import Strings StringsFacts Utf8 System Config Cli Args.
Open Scope list_scope.

(** ** The arguments *)

Inductive opt := OHelp | OVersion | OVerbose | OInput | OOutput.

(** clap's [ArgAction]; [TakeValue] is the default of an argument with a value. *)
Inductive action := PrintHelp | PrintVersion | CountUp | TakeValue.

Record arg_def := { a_short : char; a_longs : list str; a_action : action }.

(** args.rs:37-69 and 83-103. *)
Definition def_of (o : opt) : arg_def :=
  match o with
  | OHelp => {| a_short := 104%N; a_longs := [lit "help"]; a_action := PrintHelp |}
  | OVersion => {| a_short := 86%N; a_longs := [lit "version"]; a_action := PrintHelp |}
  | OVerbose => {| a_short := 118%N; a_longs := [lit "verbose"; lit "debug"]; a_action := CountUp |}
  | OInput => {| a_short := 105%N; a_longs := [lit "input"]; a_action := TakeValue |}
  | OOutput => {| a_short := 111%N; a_longs := [lit "output"]; a_action := TakeValue |}
  end.

(** Where in the command line: before the command, or behind it. *)
Inductive scope := Root | InParse | InInitialize.

(** The arguments known there: help and version are [global] (lines 43, 54),
    verbose is not. *)
Definition opts_of (sc : scope) : list opt :=
  match sc with
  | Root => [OHelp; OVersion; OVerbose]
  | InParse => [OInput; OOutput; OHelp; OVersion]
  | InInitialize => [OHelp; OVersion]
  end.

Definition find_long (sc : scope) (name : str) : option opt :=
  List.find (fun o => existsb (str_eqb name) (a_longs (def_of o))) (opts_of sc).
Definition find_short (sc : scope) (c : char) : option opt :=
  List.find (fun o => ceq c (a_short (def_of o))) (opts_of sc).

(** ** Reading *)

Definition c_eq : char := 61%N.

(** What clap makes of a command line: [Cli] (args.rs:33-70), or it prints
    something and ends the program. *)
Inductive verdict :=
| Accepted (c : command) (verbose : nat)
| ShowHelp
| ShowVersion
| Refused.

(** The matches so far. *)
Record got := { g_verbose : nat; g_input : option path; g_output : option format }.

(** After one word: go on, the value of an option must follow, or the end. *)
Inductive outcome := Go (g : got) | Wait (o : opt) (g : got) | Ends (v : verdict).

Section Reading.
(** [dirs::home_dir()], and the file system and the working directory for
    [parse_dir] (args.rs:113-117). *)
Variable home : option str.
Variable f : fs.
Variable dir : path.

(** args.rs:10-14: the names of the variants as [ValueEnum] derives them. *)
Definition format_of (s : str) : option format :=
  if str_eqb s (lit "pdf") then Some Pdf
  else if str_eqb s (lit "html") then Some Html
  else None.

(** An option with a value; a second one is refused. *)
Definition set_value (o : opt) (s : str) (g : got) : outcome :=
  match o with
  | OInput =>
      match g_input g, parse_dir home f dir s with
      | None, Some p => Go {| g_verbose := g_verbose g; g_input := Some p; g_output := g_output g |}
      | _, _ => Ends Refused
      end
  | OOutput =>
      match g_output g, format_of s with
      | None, Some x => Go {| g_verbose := g_verbose g; g_input := g_input g; g_output := Some x |}
      | _, _ => Ends Refused
      end
  | _ => Ends Refused
  end.

(** An argument without a value; [verbose] is a [u8] that stops at 255. *)
Definition react (o : opt) (g : got) : outcome :=
  match a_action (def_of o) with
  | PrintHelp => Ends ShowHelp
  | PrintVersion => Ends ShowVersion
  | CountUp =>
      Go {| g_verbose := Nat.min (S (g_verbose g)) 255; g_input := g_input g; g_output := g_output g |}
  | TakeValue => Ends Refused
  end.

Definition takes_value (o : opt) : bool :=
  match a_action (def_of o) with TakeValue => true | _ => false end.

(** [s] stands behind two hyphens. *)
Definition long_arg (sc : scope) (g : got) (s : str) : outcome :=
  let (name, value) := match split_once c_eq s with
                       | Some (n, v) => (n, Some v)
                       | None => (s, None)
                       end in
  match find_long sc name with
  | None => Ends Refused
  | Some o =>
      match takes_value o, value with
      | true, Some v => set_value o v g
      | true, None => Wait o g
      | false, Some _ => Ends Refused
      | false, None => react o g
      end
  end.

(** [s] stands behind one hyphen: flags, and at most one option with the rest as
    its value. *)
Fixpoint short_args (sc : scope) (g : got) (s : str) : outcome :=
  match s with
  | [] => Go g
  | c :: r =>
      match find_short sc c with
      | None => Ends Refused
      | Some o =>
          if takes_value o then
            match r with
            | [] => Wait o g
            | d :: r' => set_value o (if ceq d c_eq then r' else r) g
            end
          else match react o g with
               | Go g' => short_args sc g' r
               | e => e
               end
      end
  end.

(** What a word is: the two hyphens, behind which everything is a value; a long
    argument; short ones; or something else, in particular a single hyphen. *)
Inductive word := Escape | Long (s : str) | Short (s : str) | Plain.
Definition word_of (a : str) : word :=
  match strip_prefix (lit "--") a with
  | Some [] => Escape
  | Some s => Long s
  | None => match strip_prefix (lit "-") a with
            | Some [] => Plain
            | Some s => Short s
            | None => Plain
            end
  end.

(** args.rs:85-92 ([required]) and 94-102 ([default_value_t]). *)
Definition finish (sc : scope) (g : got) : verdict :=
  match sc with
  | Root => Refused
  | InParse =>
      match g_input g with
      | Some p => Accepted (CParse p (match g_output g with Some x => x | None => Pdf end)) (g_verbose g)
      | None => Refused
      end
  | InInitialize => Accepted CInitialize (g_verbose g)
  end.

(** Behind the command; [w] is the option that waits for its value, [esc] says
    that the two hyphens have been read.  No command has positional values. *)
Fixpoint sub_args (sc : scope) (w : option opt) (esc : bool) (g : got) (args : list str) : verdict :=
  match args with
  | [] => match w with Some _ => Refused | None => finish sc g end
  | a :: rest =>
      if esc then Refused
      else
        let next o := match o with
                      | Go g' => sub_args sc None false g' rest
                      | Wait o' g' => sub_args sc (Some o') false g' rest
                      | Ends v => v
                      end in
        match word_of a, w with
        | Escape, _ => sub_args sc w true g rest
        | Long s, None => next (long_arg sc g s)
        | Short s, None => next (short_args sc g s)
        | Plain, Some o => next (set_value o a g)
        | _, _ => Refused
        end
  end.

(** Before the command; args.rs:72-80 names the commands.  A command line without
    a command is refused (the help text may be shown, but as an error). *)
Fixpoint root_args (esc : bool) (g : got) (args : list str) : verdict :=
  match args with
  | [] => Refused
  | a :: rest =>
      if esc then Refused
      else if str_eqb a (lit "parse") then sub_args InParse None false g rest
      else if str_eqb a (lit "initialize") then sub_args InInitialize None false g rest
      else
        let next o := match o with
                      | Go g' => root_args false g' rest
                      | Wait _ _ => Refused
                      | Ends v => v
                      end in
        match word_of a with
        | Escape => root_args true g rest
        | Long s => next (long_arg Root g s)
        | Short s => next (short_args Root g s)
        | Plain => Refused
        end
  end.

(** main.rs:11 [Cli::parse], of the words behind the name of the program. *)
Definition understood (args : list str) : verdict :=
  root_args false {| g_verbose := 0; g_input := None; g_output := None |} args.

(** main.rs:10-31: the whole program.  clap ends it with 0 behind a text that was
    asked for and with 2 behind an error.  The input is looked up in the file
    system as it is in the beginning. *)
Definition program (n : nat) (st : settings) (args : list str) : prog nat :=
  match understood args with
  | Accepted c _ => main n st c
  | ShowHelp => Done 0
  | ShowVersion => Done 0
  | Refused => Done 2
  end.

End Reading.
