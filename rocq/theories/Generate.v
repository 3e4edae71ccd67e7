(** * Generate: the programs smd-mangen and smd-completions.

    /repo/smd/src/bin/mangen.rs and completion.rs as programs over System.v, and what the Debian package
    (smd/Cargo.toml:67-102) takes from them.  The texts that clap_mangen and clap_complete make
    of the command line are arbitrary.  Simplified: [OUT_DIR] is an absolute path; the line that
    [println!] writes at the end is left out. *)
From Coq Require Import Ascii String.
From Verif Require Import Strings StringsFacts Utf8 System Cli Args.
Open Scope list_scope.

(** std [Write::write_all]: [write] until nothing is left; if nothing is taken, it is an error.
    [n] bounds the number of calls; the length of the text is enough. *)
Definition write_zero : str := lit "failed to write whole buffer".
Fixpoint write_all (n : nat) (h : handle) (off : nat) (b : bytes) : prog (io unit) :=
  match b, n with
  | [], _ => Done (inl tt)
  | _ :: _, 0 => Done (inr write_zero)
  | _ :: _, S n' =>
      Do (Write h off b) (fun r =>
      match r with
      | inr e => Done (inr e)
      | inl 0 => Done (inr write_zero)
      | inl k => write_all n' h (off + k) (skipn k b)
      end)
  end.

(** [CARGO_PKG_NAME], smd/Cargo.toml:2 *)
Definition pkg_name : str := lit "smd".

(** [fn main() -> Result<()>]: an error is exit status 1. *)
Definition exit_io (r : io unit) : prog nat := Done (match r with inl _ => 0 | inr _ => 1 end).

(** ** mangen.rs *)
Definition man_file (dir : path) : path := dir ++ [pkg_name ++ lit ".1"].

(** mangen.rs:12-24; the page is complete before the file is opened.  Without [OUT_DIR]: [expect]. *)
Definition mangen (out_dir : option path) (page : bytes) : prog nat :=
  match out_dir with
  | None => Stop
  | Some dir =>
      Do (Create (man_file dir)) (fun r =>
      match r with
      | inr e => Done 1
      | inl h => pbind (write_all (length page) h 0 page) exit_io
      end)
  end.

(** ** completion.rs *)
Inductive shell := Bash | Elvish | Fish | PowerShell | Zsh.

(** clap_complete [Shell::value_variants] *)
Definition shells : list shell := [Bash; Elvish; Fish; PowerShell; Zsh].

(** clap_complete [Generator::file_name] *)
Definition script_name (s : shell) : str :=
  match s with
  | Bash => pkg_name ++ lit ".bash"
  | Elvish => pkg_name ++ lit ".elv"
  | Fish => pkg_name ++ lit ".fish"
  | PowerShell => lit "_" ++ pkg_name ++ lit ".ps1"
  | Zsh => lit "_" ++ pkg_name
  end.
Definition script_file (dir : path) (s : shell) : path := dir ++ [script_name s].

(** completion.rs:18-24.  [generate_to] returns an error of [File::create] and panics at an error of [write_all]. *)
Fixpoint generate (dir : path) (script : shell -> bytes) (ss : list shell) : prog nat :=
  match ss with
  | [] => Done 0
  | s :: ss' =>
      Do (Create (script_file dir s)) (fun r =>
      match r with
      | inr e => Done 1
      | inl h =>
          pbind (write_all (length (script s)) h 0 (script s)) (fun r =>
          match r with inl _ => generate dir script ss' | inr _ => Stop end)
      end)
  end.
Definition completions (out_dir : option path) (script : shell -> bytes) : prog nat :=
  match out_dir with None => Stop | Some dir => generate dir script shells end.

(** ** The Debian package *)

(** smd/Cargo.toml:67-102, the sources *)
Definition deb_assets : list str := map lit
  [ "target/release/smd"; "../LICENSE"; "../README.md"; "../man/smd.1"; "../completions/smd.bash";
    "../completions/smd.fish"; "../completions/_smd" ]%string.

(** cargo-deb: relative to the directory of the package, but [target/release/] is the one of the workspace. *)
Fixpoint walk (p : path) (names : list str) : path :=
  match names with
  | [] => p
  | n :: ns => walk (if str_eqb n (lit "..") then removelast p else p ++ [n]) ns
  end.
Definition asset_path (root : path) (a : str) : path :=
  let parts := split [c_slash] a in
  if starts_with (lit "target/release/") a then root ++ parts else walk (root ++ [pkg_name]) parts.

(** release.yaml:380-384: [OUT_DIR=man] and [OUT_DIR=completions] in the root. *)
Definition man_dir (root : path) : path := root ++ [lit "man"].
Definition completions_dir (root : path) : path := root ++ [lit "completions"].
