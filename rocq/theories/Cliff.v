(** * Cliff: the changelog that release.sh has git-cliff write.

    .cliff/default.toml and release.sh:22.  git-cliff, the crate git-conventional, TOML strings and the
    template language Tera are modelled after their documentation; /repo/CHANGELOG.md, which they wrote,
    is what the model makes from its commits ([C88_file] in PropertiesCliff.v).  Messages of commits
    have one line (longer ones have a body and footers, which the template does not print, except
    that a footer can mark a commit as breaking). *)
From Coq Require Import Ascii String.
From Verif Require Import Strings.
Open Scope list_scope.

(** A commit as git-cliff reads it: the message and its parts after conventionalcommits.org. *)
Record commit := Commit {
  hash : str; message : str; kind : str; scope : option str; breaking : bool; description : str }.

(** git-conventional: [kind(scope)!: description]. *)
Definition kind_char (c : char) : bool := negb (is_whitespace c) && negb (mem_char c (lit "()!:")).
Definition scope_char (c : char) : bool := negb (mem_char c (lit "()")).
Definition read_scope (r : str) : option (option str * str) :=
  match r with
  | [] => None
  | c :: r1 =>
      if ceq c c_lpar then
        let s := take_while scope_char r1 in
        match s, drop_while scope_char r1 with
        | _ :: _, d :: r2 => if ceq d c_rpar then Some (Some s, r2) else None
        | _, _ => None
        end
      else Some (None, r)
  end.
Definition blank (c : char) : bool := ceq c c_sp || ceq c c_tab.
Definition read_mark (r : str) : bool * str :=
  match r with
  | c :: r1 => if ceq c c_bang then (true, r1) else (false, r)
  | [] => (false, r)
  end.
Definition read_commit (h m : str) : option commit :=
  let k := take_while kind_char m in
  if is_empty k then None
  else match read_scope (drop_while kind_char m) with
  | None => None
  | Some (s, r1) =>
      let (b, r2) := read_mark r1 in
      match r2 with
      | c :: r3 =>
          let d := trim_start_by blank r3 in
          if ceq c c_colon && negb (is_empty d) then Some (Commit h m k s b d) else None
      | [] => None
      end
  end.

(** .cliff/default.toml:53-61 [commit_parsers]: a beginning of the message and a group. *)
Definition parsers : list (str * str) :=
  [ (lit "feat", 10024%N :: lit " Features");
    (lit "fix", 128027%N :: lit " Bug Fixes");
    (lit "refactor", 128668%N :: lit " Refactoring");
    (lit "init", 127881%N :: lit " Initial Commit");
    (lit "style", 127912%N :: lit " Styling");
    (lit "revert", 8617%N :: 65039%N :: lit " Reverts");
    (lit "chore", 128295%N :: lit "Chores") ].
(** The first that fits, and the kind of the commit if none does. *)
Definition group (c : commit) : str :=
  match find (fun p => starts_with (fst p) (message c)) parsers with
  | Some p => snd p
  | None => kind c
  end.

(** .cliff/default.toml:6-8, 15-17 [remote_url]. *)
Definition owner : str := lit "Flokkq".
Definition repo : str := lit "https://github.com/orhun/git-cliff/blob/main/cliff.toml".
Definition remote_url : str := lit "https://github.com/" ++ owner ++ lit "/" ++ repo.

(** Filters of Tera: [striptags], and [upper_first] with [char::to_uppercase] as a parameter. *)
Fixpoint skip_past (n : nat) (p s : str) : option str :=
  match n with
  | O => None
  | S n' => if starts_with p s then Some (skipn (length p) s)
            else match s with [] => None | _ :: s' => skip_past n' p s' end
  end.
Fixpoint striptags_go (n : nat) (s : str) : str :=
  match n, s with
  | S n', c :: s' =>
      match (if starts_with (lit "<!--") s then skip_past (length s) (lit "-->") (skipn 4 s) else None) with
      | Some r => striptags_go n' r
      | None =>
          match (if ceq c c_lt then skip_past (length s) (lit ">") s' else None) with
          | Some r => striptags_go n' r
          | None => c :: striptags_go n' s'
          end
      end
  | _, _ => []
  end.
Definition striptags (s : str) : str := striptags_go (length s) s.

Section Tera.
Variable upper : char -> str.

Definition upper_first (s : str) : str := match s with [] => [] | c :: s' => upper c ++ s' end.

(** .cliff/default.toml:19-24 [print_commit]; lines joined by a backslash. *)
Definition entry (c : commit) : str :=
  lit "- "
  ++ match scope c with Some s => lit "*(" ++ s ++ lit ")* " | None => [] end
  ++ (if breaking c then lit "[**breaking**] " else [])
  ++ upper_first (description c)
  ++ lit " - ([" ++ firstn 7 (hash c) ++ lit "](" ++ remote_url ++ lit "/commit/" ++ hash c ++ lit "))".

(** The keys of [group_by], in the order of their code points. *)
Fixpoint before (a b : str) : bool :=
  match a, b with
  | [], [] => false
  | [], _ :: _ => true
  | _ :: _, [] => false
  | x :: a', y :: b' => if N.ltb x y then true else ceq x y && before a' b'
  end.
Fixpoint insert (k : str) (l : list str) : list str :=
  match l with
  | [] => [k]
  | x :: l' => if str_eqb k x then l else if before k x then k :: l else x :: insert k l'
  end.
Definition groups (cs : list commit) : list str := fold_right insert [] (map group cs).

(** .cliff/default.toml:37-42 *)
Definition title (g : str) : str := upper_first (trim (striptags g)).
Definition section (cs : list commit) (g : str) : str :=
  c_nl :: lit "### " ++ title g ++ [c_nl]
  ++ flat_map (fun c => c_nl :: entry c) (filter (fun c => str_eqb (group c) g) cs) ++ [c_nl].

(** A release: the commits (hash and message) behind the tag before it, newest first. *)
Record release := Release { version : option str; previous : option str; date : str; history : list (str * str) }.

(** .cliff/default.toml:26-35 *)
Definition heading (r : release) : str :=
  match version r with
  | Some v =>
      let n := trim_start_by (ceq 118%N) v in
      [c_nl; c_nl] ++ lit "## [" ++ n ++ lit "]"
      ++ match previous r with
         | Some p => lit "(" ++ remote_url ++ lit "/compare/" ++ p ++ lit ".." ++ v ++ lit ")"
         | None => []
         end
      ++ lit " - " ++ date r ++ [c_nl; c_nl]
  | None => c_nl :: lit "## [Unreleased]" ++ [c_nl]
  end ++ [c_nl; c_nl].

(** [filter_unconventional = true] (.cliff/default.toml:51): other commits are left out. *)
Fixpoint commits (l : list (str * str)) : list commit :=
  match l with
  | [] => []
  | (h, m) :: l' => match read_commit h m with Some c => c :: commits l' | None => commits l' end
  end.
Definition body (r : release) : str :=
  let cs := commits (history r) in heading r ++ flat_map (section cs) (groups cs).

(** .cliff/default.toml:11-13, 43-45 *)
Definition changelog (rs : list release) : str :=
  lit "# Changelog" ++ [c_nl] ++ flat_map body rs ++ lit "<!-- generated by git-cliff -->" ++ [c_nl].
End Tera.
