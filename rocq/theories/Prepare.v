(** * Prepare: release.sh as a program that changes a git repository.

    [Release] models what the commands [sed] of the script make of the files and which commands
    run; [Cliff] models what git-cliff prints for given releases.  Here both are put together with
    what [git add -A], [git commit] and [git tag] do (release.sh:16-38), and with the way in which
    git-cliff divides the commits into releases.  Simplified: the history has no merges; the message
    of the tag (release.sh:26-37) is in [TagMessage]; the files that .gitignore names are left out of the
    working tree, as git leaves them out; which these are is in [Ignore]. *)
From Coq Require Import Ascii String.
From Verif Require Import Strings Release.
From Verif Require Cliff.
Open Scope list_scope.

(** Paths and texts of files. *)
Definition tree := list (str * str).

Fixpoint get (t : tree) (p : str) : option str :=
  match t with
  | [] => None
  | (q, x) :: t' => if str_eqb p q then Some x else get t' p
  end.

Fixpoint put (t : tree) (p x : str) : tree :=
  match t with
  | [] => [(p, x)]
  | (q, y) :: t' => if str_eqb p q then (p, x) :: t' else (q, y) :: put t' p x
  end.

Definition opt_eqb (a b : option str) : bool :=
  match a, b with
  | Some x, Some y => str_eqb x y
  | None, None => true
  | _, _ => false
  end.

(** The same files with the same texts. *)
Definition same (t u : tree) : bool :=
  forallb (fun p => opt_eqb (get t p) (get u p)) (map fst t ++ map fst u).

(** A commit: hash, message, day, files. *)
Record snapshot := Snapshot { s_hash : str; s_message : str; s_day : str; s_tree : tree }.

(** The commits, the newest first; the tags with the hashes they point to; the working tree. *)
Record repo := Repo { log : list snapshot; tags : list (str * str); work : tree }.

Fixpoint target (ts : list (str * str)) (tag : str) : option str :=
  match ts with
  | [] => None
  | (t, h) :: ts' => if str_eqb t tag then Some h else target ts' tag
  end.

Definition head_tree (l : list snapshot) : tree :=
  match l with [] => [] | c :: _ => s_tree c end.

(** ** The files, release.sh:16-22 *)
Definition changelog_path : str := lit "CHANGELOG.md".
Definition gfm_path : str := lit "gfm/Cargo.toml".
Definition package_path : str := lit "npm/smd/package.json".

(** The pattern [smd*/Cargo.toml] of the shell: [*] does not go over a slash. *)
Fixpoint dir_then_toml (s : str) : bool :=
  str_eqb s (lit "/Cargo.toml") ||
  match s with
  | c :: s' => negb (ceq c 47%N) && dir_then_toml s'
  | [] => false
  end.
Definition smd_path (p : str) : bool := starts_with (lit "smd") p && dir_then_toml (skipn 3 p).

(** One of the commands [sed]; if [sed] does not accept its argument it changes nothing. *)
Definition toml_edit (tag x : str) : str :=
  match parts (toml_text (strip_v tag)) with Some t => sed false toml_regex t x | None => x end.
Definition version_edit (tag x : str) : str :=
  match parts (json_text (strip_v tag)) with Some j => sed false json_regex j x | None => x end.
Definition dep_edit (tag x : str) : str :=
  match parts (dep_text (strip_v tag)) with Some d => sed true dep_regex d x | None => x end.

Definition on (ok : bool) (which : str -> bool) (f : str -> str) (t : tree) : tree :=
  map (fun e => if ok && which (fst e) then (fst e, f (snd e)) else e) t.

(** release.sh:16-19 *)
Definition edit_tree (ok : command -> bool) (tag : str) (t : tree) : tree :=
  on (ok (Sed 3)) (str_eqb package_path) (dep_edit tag)
    (on (ok (Sed 2)) (str_eqb package_path) (version_edit tag)
      (on (ok (Sed 1)) (str_eqb gfm_path) (toml_edit tag)
        (on (ok (Sed 0)) smd_path (toml_edit tag) t))).

(** ** The releases, as git-cliff finds them *)

(** [tag_pattern = "v[0-9].*"], .cliff/default.toml: a [v] and a digit anywhere in the name. *)
Fixpoint release_tag (t : str) : bool :=
  match t with
  | [] => false
  | c :: t' => (ceq c 118%N && match t' with d :: _ => is_digit d | [] => false end) || release_tag t'
  end.

(** The tag that points to a commit, if there is one that fits the pattern. *)
Fixpoint named (ts : list (str * str)) (h : str) : option str :=
  match ts with
  | [] => None
  | (t, h') :: ts' => if str_eqb h' h && release_tag t then Some t else named ts' h
  end.

(** [--tag]: the newest commit gets this name, if it has none. *)
Definition names (ts : list (str * str)) (tag : option str) (l : list snapshot) (h : str) : option str :=
  match named ts h, tag, l with
  | Some t, _, _ => Some t
  | None, Some t, c :: _ => if str_eqb (s_hash c) h then Some t else None
  | None, _, _ => None
  end.

(** The commits from one tag to the next, the newest first. [previous] is added by [chained]. *)
Fixpoint chunks (name : str -> option str) (l : list snapshot) : list Cliff.release :=
  match l with
  | [] => []
  | c :: l' =>
      let e := (s_hash c, s_message c) in
      match chunks name l' with
      | Cliff.Release None _ _ es :: rs => Cliff.Release (name (s_hash c)) None (s_day c) (e :: es) :: rs
      | rs => Cliff.Release (name (s_hash c)) None (s_day c) [e] :: rs
      end
  end.

Fixpoint chained (rs : list Cliff.release) : list Cliff.release :=
  match rs with
  | [] => []
  | r :: rs' =>
      Cliff.Release (Cliff.version r) (match rs' with r' :: _ => Cliff.version r' | [] => None end)
        (Cliff.date r) (Cliff.history r) :: chained rs'
  end.

Definition releases (r : repo) (tag : option str) : list Cliff.release :=
  chained (chunks (names (tags r) tag (log r)) (log r)).

(** ** The script *)
Section Run.
(** The capital letter for a char, as in [Cliff]; the hash and the day that git gives to a commit;
    which commands succeed, where [git commit] and [git tag] have reasons of their own to fail. *)
Variable upper : char -> str.
Variable hash_of : list snapshot -> str -> tree -> str.
Variable day : str.
Variable ok : command -> bool.

(** git-cliff --config .cliff/default.toml --tag *)
Definition cliff (r : repo) (tag : option str) : str := Cliff.changelog upper (releases r tag).

(** release.sh:16-22; the shell empties CHANGELOG.md before git-cliff runs. *)
Definition prepared (tag : str) (r : repo) : tree :=
  put (edit_tree ok tag (work r)) changelog_path (if ok (Cliff true) then cliff r (Some tag) else []).

Definition prepare_message (tag : str) : str := lit "chore(release): prepare for " ++ tag.

(** release.sh:23; git does not make a commit without a change. *)
Definition commit_all (tag : str) (r : repo) : repo :=
  if ok Add && ok Commit && negb (same (work r) (head_tree (log r)))
  then Repo (Snapshot (hash_of (log r) (prepare_message tag) (work r)) (prepare_message tag) day (work r) :: log r)
            (tags r) (work r)
  else r.

(** release.sh:37; git does not move a tag. *)
Definition tag_head (tag : str) (r : repo) : repo :=
  match ok TagIt, target (tags r) tag, log r with
  | true, None, c :: _ => Repo (log r) ((tag, s_hash c) :: tags r) (work r)
  | _, _, _ => r
  end.

(** release.sh:7-38 *)
Definition release_sh (tag : str) (r : repo) : repo :=
  if is_empty tag then r else
  tag_head tag (commit_all tag (Repo (log r) (tags r) (prepared tag r))).

End Run.
