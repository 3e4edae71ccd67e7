(** * TagMessage: the message that release.sh gives to the tag.

    release.sh:26-37 and .cliff/detailed.toml.  git-cliff and Tera as in [Cliff], git after builtin/tag.c and
    strbuf.c.  Messages of commits have one line, as in [Cliff]. *)
From Coq Require Import Ascii String.
From Verif Require Import Strings Release Prepare.
From Verif Require Cliff.
Open Scope list_scope.

(** What the template uses of a commit. *)
Record item := Item { i_group : str; i_breaking : bool; i_message : str; i_id : str }.

(** .cliff/detailed.toml:45-58: [filter_unconventional = false] and [filter_commits = false].  A message that is not
    conventional is kept with its group; without a group [group_by] (release.sh:28) leaves it out. *)
Definition item_of (h m : str) : option item :=
  match Cliff.read_commit h m with
  | Some c => Some (Item (Cliff.group c) (Cliff.breaking c) (Cliff.description c) h)
  | None =>
      match find (fun p => starts_with (fst p) m) Cliff.parsers with
      | Some p => Some (Item (snd p) false m h)
      | None => None
      end
  end.
Fixpoint items (l : list (str * str)) : list item :=
  match l with
  | [] => []
  | (h, m) :: l' => match item_of h m with Some i => i :: items l' | None => items l' end
  end.

(** [--unreleased] (release.sh:35): the commits behind the newest tag; .cliff/detailed.toml has no [tag_pattern], so
    that every tag counts. *)
Definition tagged (ts : list (str * str)) (h : str) : bool := existsb (fun t => str_eqb (snd t) h) ts.
Fixpoint since (ts : list (str * str)) (l : list snapshot) : list (str * str) :=
  match l with
  | c :: l' => if tagged ts (s_hash c) then [] else (s_hash c, s_message c) :: since ts l'
  | [] => []
  end.
(** .cliff/detailed.toml:62 [sort_commits = "oldest"]. *)
Definition unreleased (r : repo) : list (str * str) := rev (since (tags r) (log r)).

Section Tera.
Variable upper : char -> str.

(** release.sh:31-32; in double quotes a backslash before the end of the line joins the lines, and
    [trim = true] (.cliff/detailed.toml:39) removes the tabs before and behind each line of the template. *)
Definition line (i : item) : str :=
  lit "- " ++ (if i_breaking i then lit "(breaking) " else [])
  ++ Cliff.upper_first upper (i_message i) ++ lit " (" ++ firstn 7 (i_id i) ++ lit ")" ++ [c_tab].

(** release.sh:28-33 *)
Definition part (its : list item) (g : str) : str :=
  c_nl :: Cliff.upper_first upper g ++ [c_tab]
  ++ flat_map (fun i => c_nl :: line i) (filter (fun i => str_eqb (i_group i) g) its) ++ [c_nl].
Definition part_names (its : list item) : list str := fold_right Cliff.insert [] (map i_group its).
Definition tag_changelog (r : repo) : str :=
  let its := items (unreleased r) in flat_map (part its) (part_names its).

(** [$(...)] (release.sh:35) removes the line ends at the end. *)
Definition substitution (s : str) : str := trim_end_by (ceq c_nl) s.

(** What git makes of the texts behind [-m]: lines that begin with a number sign are comments, blanks at the ends of
    lines and empty lines at the beginning and the end are removed, several empty lines become one. *)
Fixpoint git_lines (s : str) : list str :=
  match s with
  | [] => [[]]
  | c :: s' =>
      if ceq c c_nl then [] :: git_lines s'
      else match git_lines s' with l :: ls => (c :: l) :: ls | [] => [[c]] end
  end.
Definition git_space (c : char) : bool := mem_char c [c_sp; c_tab; c_nl; c_cr].
Definition comment (l : str) : bool := starts_with (lit "#") l.
Fixpoint strip_lines (started pending : bool) (ls : list str) : str :=
  match ls with
  | [] => []
  | l :: ls' =>
      if comment l then strip_lines started pending ls'
      else match trim_end_by git_space l with
      | [] => strip_lines started true ls'
      | x => (if started && pending then [c_nl] else []) ++ x ++ [c_nl] ++ strip_lines true false ls'
      end
  end.
Definition stripspace (s : str) : str := strip_lines false false (git_lines s).

(** release.sh:35-37, [changelog] being what git-cliff printed: the message of the tag. *)
Definition tag_text (tag changelog : str) : str :=
  stripspace (lit "Release " ++ tag ++ [c_nl; c_nl] ++ substitution changelog).

(** release.sh:7-37: the message of the tag that a run makes, if it makes one. *)
Definition tag_message (hash_of : list snapshot -> str -> tree -> str) (day : str) (ok : command -> bool)
    (tag : str) (r : repo) : option str :=
  if is_empty tag then None else
  let r1 := commit_all hash_of day ok tag (Repo (log r) (tags r) (prepared upper ok tag r)) in
  match ok TagIt, target (tags r1) tag, log r1 with
  | true, None, _ :: _ => Some (tag_text tag (if ok (Release.Cliff false) then tag_changelog r1 else []))
  | _, _, _ => None
  end.
End Tera.
