(** * Args: the argument --input, /repo/smd/src/args.rs:106-117.

    The rest of the command line is in Clap.v. *)
From Coq Require Import Ascii String.
From Verif Require Import Strings StringsFacts Utf8 System.
Open Scope list_scope.

Definition c_tilde : char := 126%N.
Definition c_slash : char := 47%N.

(** shellexpand::tilde: a tilde at the beginning, alone or before a slash. *)
Definition tilde (home : option str) (s : str) : str :=
  match s with
  | c :: r =>
      if ceq c c_tilde then
        match r with
        | [] => match home with Some h => h | None => s end
        | d :: _ => if ceq d c_slash then match home with Some h => h ++ r | None => s end else s
        end
      else s
  | [] => s
  end.

(** The text between the slashes. *)
Fixpoint components (s : str) : list str :=
  match s with
  | [] => [[]]
  | c :: r =>
      if ceq c c_slash then [] :: components r
      else match components r with
           | x :: xs => (c :: x) :: xs
           | [] => [[c]]
           end
  end.

(** realpath(3) from the directory [cur]; symbolic links are followed at every
    component. *)
Fixpoint walk (f : fs) (cur : path) (cs : list str) : option path :=
  match cs with
  | [] => Some cur
  | c :: cs' =>
      if is_dir f cur then
        if is_empty c || str_eqb c (lit ".") then walk f cur cs'
        else if str_eqb c (lit "..") then walk f (parent cur) cs'
        else match resolve max_links f (cur ++ [c]) with
             | Some q => match names f q with Some _ => walk f q cs' | None => None end
             | None => None
             end
      else None
  end.

(** std [fs::canonicalize] of a path given as text. *)
Definition canonicalize (f : fs) (dir : path) (s : str) : option path :=
  match s with
  | [] => None
  | c :: r => if ceq c c_slash then walk f [] (components r) else walk f dir (components s)
  end.

(** args.rs:113-117 [Cli::parse_dir]; [None] is the error, with which clap ends
    the program. *)
Definition parse_dir (home : option str) (f : fs) (dir : path) (s : str) : option path :=
  canonicalize f dir (tilde home s).
