(** * Shell: texts that .github/workflows/release.yaml puts into its scripts

    GitHub replaces [${{ ... }}] in the text of a script before the shell reads it.  The model is
    the part of the syntax of bash these scripts need (POSIX, Shell Command Language, 2.2 and 2.3):
    quotes, escapes, separators of commands and words, and where commands and parameters are
    substituted.  Simplified: all separators are alike, what a parameter stands for is not looked
    up, a command substitution reaches to the next closing char, and assignments and reserved words
    are words like others.  Other syntax (redirections,
    parentheses, comments, patterns, braces) outside quotes gives [None], as does a quote that
    is left open. *)
From Coq Require Import Ascii String.
From Verif Require Import Strings Release.
Open Scope list_scope.

(** A part of a word: a char that stands for itself, a command that is run and replaced by what it
    prints, or the start of the name of a parameter. *)
Inductive part := Self (c : char) | Run (cmd : str) | Param.
Definition word := list part.

Definition c_dollar : char := 36%N.
Definition c_semi : char := 59%N.
Definition c_apos : char := 39%N.

(** The chars outside quotes that the model has no meaning for. *)
Definition unread : list char := lit "(){}<>#*?[~".

(** [inside]: the substitution stands between double quotes. *)
Inductive mode := Bare | Single | Double | Tick (inside : bool) (cmd : str) | Paren (inside : bool) (cmd : str).
Definition back (inside : bool) : mode := if inside then Double else Bare.

(** The word being read, if any, and the words of the command before it (both backwards). *)
Definition add (p : part) (w : option word) : option word :=
  Some (p :: match w with Some l => l | None => [] end).
Definition open (w : option word) : option word :=
  Some match w with Some l => l | None => [] end.
Definition close (w : option word) (ws : list word) : list word :=
  match w with Some l => rev l :: ws | None => ws end.
Definition command_end (w : option word) (ws : list word) (cs : list (list word)) : list (list word) :=
  match close w ws with [] => cs | l => rev l :: cs end.

Fixpoint shell_go (m : mode) (w : option word) (ws : list word) (cs : list (list word)) (s : str)
  : option (list (list word)) :=
  match s with
  | [] => match m with Bare => Some (rev (command_end w ws cs)) | _ => None end
  | c :: r =>
      match m with
      | Bare =>
          if ceq c c_sp || ceq c c_tab then shell_go Bare None (close w ws) cs r
          else if mem_char c [c_nl; c_semi; c_amp; c_pipe] then shell_go Bare None [] (command_end w ws cs) r
          else if ceq c c_quot then shell_go Double (open w) ws cs r
          else if ceq c c_apos then shell_go Single (open w) ws cs r
          else if ceq c c_tick then shell_go (Tick false []) w ws cs r
          else if ceq c c_dollar then
            match r with
            | d :: r' => if ceq d c_lpar then shell_go (Paren false []) w ws cs r'
                         else shell_go Bare (add Param w) ws cs r
            | [] => shell_go Bare (add Param w) ws cs r
            end
          else if ceq c c_bslash then
            match r with
            | d :: r' => if ceq d c_nl then shell_go Bare w ws cs r' else shell_go Bare (add (Self d) w) ws cs r'
            | [] => None
            end
          else if mem_char c unread then None
          else shell_go Bare (add (Self c) w) ws cs r
      | Single => if ceq c c_apos then shell_go Bare w ws cs r else shell_go Single (add (Self c) w) ws cs r
      | Double =>
          if ceq c c_quot then shell_go Bare w ws cs r
          else if ceq c c_tick then shell_go (Tick true []) w ws cs r
          else if ceq c c_dollar then
            match r with
            | d :: r' => if ceq d c_lpar then shell_go (Paren true []) w ws cs r'
                         else shell_go Double (add Param w) ws cs r
            | [] => None
            end
          else if ceq c c_bslash then
            match r with
            | d :: r' => if ceq d c_nl then shell_go Double w ws cs r'
                         else if mem_char d [c_dollar; c_tick; c_quot; c_bslash] then shell_go Double (add (Self d) w) ws cs r'
                         else shell_go Double (add (Self c) w) ws cs r
            | [] => None
            end
          else shell_go Double (add (Self c) w) ws cs r
      | Tick b cmd => if ceq c c_tick then shell_go (back b) (add (Run (rev cmd)) w) ws cs r
                      else shell_go (Tick b (c :: cmd)) w ws cs r
      | Paren b cmd => if ceq c c_rpar then shell_go (back b) (add (Run (rev cmd)) w) ws cs r
                       else shell_go (Paren b (c :: cmd)) w ws cs r
      end
  end.
(** The commands of a script, each with its words. *)
Definition shell (script : str) : option (list (list word)) := shell_go Bare None [] [] script.

(** The word that is [s]. *)
Definition plain (s : str) : word := map Self s.

(** What [echo] prints: its arguments, behind options (a minus and some of n, e and E). *)
Definition echo_option (s : str) : bool :=
  match s with
  | c :: x :: r => ceq c c_minus && forallb (fun d => mem_char d (lit "neE")) (x :: r)
  | _ => false
  end.
Definition text_of (w : word) : option str :=
  List.fold_right (fun p acc => match p, acc with Self c, Some s => Some (c :: s) | _, _ => None end) (Some []) w.
Definition echoes (cmd : list word) : option str :=
  match cmd with
  | [e; w] => match text_of e, text_of w with
              | Some n, Some s => if str_eqb n (lit "echo") && negb (echo_option s) then Some (s ++ [c_nl]) else None
              | _, _ => None
              end
  | _ => None
  end.

(** release.yaml:35, with the text of git-cliff *)
Definition display_changelog (content : str) : str := lit "echo """ ++ content ++ lit """".

(** release.yaml:156, 369, 422, 471 set the version; :197 uses it *)
Definition rename (version : str) : str := lit "mv release/ smd-" ++ version ++ lit "/".
(** release.yaml:385, :436 *)
Definition package_deb (version : str) : str :=
  lit "cargo-deb --deb-revision="""" --strip -p smd -v -o smd-" ++ version ++ lit ".deb".
Definition package_rpm (version : str) : str :=
  lit "cargo generate-rpm -p smd -o smd-" ++ version ++ lit ".x86_64.rpm".

(** release.yaml:486, :489, the command behind the pipe *)
Definition look_up (version : str) : str := lit "grep -q '""vers"":""" ++ version ++ lit """'".

(** release.yaml:214-215, with the passphrase of the key; :389, :440 are alike *)
Definition import_key (pass : str) : str :=
  lit "echo """ ++ pass ++ lit """ | gpg --pinentry-mode=loopback \" ++ [c_nl]
  ++ lit "  --passphrase-fd 0 --import private.key".
