(** * SpecCliff: what is said about changelogs, without templates. *)
From Coq Require Import Ascii String Sorted.
From Verif Require Import Strings.
Open Scope list_scope.

(** A commit as its author means it, and the message written for it. *)
Record note := Note { n_hash : str; n_kind : str; n_scope : option str; n_breaking : bool; n_text : str }.
Definition wrote (n : note) : str :=
  n_kind n
  ++ match n_scope n with Some s => lit "(" ++ s ++ lit ")" | None => [] end
  ++ (if n_breaking n then lit "!" else []) ++ lit ": " ++ n_text n.

(** One line of text; the parts do not contain what ends them. *)
Definition one_line (s : str) : Prop := ~ In c_nl s.
Definition kind_text (k : str) : Prop :=
  k <> [] /\ forall c, In c k -> is_whitespace c = false /\ ~ In c (lit "()!:").
Definition proper (n : note) : Prop :=
  one_line (n_hash n) /\ kind_text (n_kind n)
  /\ (forall s, n_scope n = Some s -> s <> [] /\ one_line s /\ forall c, In c s -> ~ In c (lit "()"))
  /\ one_line (n_text n) /\ exists c t, n_text n = c :: t /\ c <> c_sp /\ c <> c_tab.

(** The words with a section of their own, and the headings of the sections. *)
Definition words : list (str * str) :=
  [ (lit "feat", 10024%N :: lit " Features");
    (lit "fix", 128027%N :: lit " Bug Fixes");
    (lit "refactor", 128668%N :: lit " Refactoring");
    (lit "init", 127881%N :: lit " Initial Commit");
    (lit "style", 127912%N :: lit " Styling");
    (lit "revert", 8617%N :: 65039%N :: lit " Reverts");
    (lit "chore", 128295%N :: lit "Chores") ].
Definition begins (p s : str) : Prop := exists r, s = p ++ r.
(** A word of the list, or one that begins with none of them, is not a heading, and has no tags. *)
Definition clear_kind (k : str) : Prop :=
  In k (map fst words) \/ (~ In c_lt k /\ ~ In k (map snd words) /\ forall w, In w (map fst words) -> ~ begins w k).

Section Upper.
Variable upper : char -> str.
Definition capital (s : str) : str := match s with [] => [] | c :: s' => upper c ++ s' end.
Definition headline (k : str) : str :=
  match find (fun w => str_eqb (fst w) k) words with Some w => snd w | None => capital k end.
(** What sections are sorted by. *)
Definition sort_key (k : str) : str :=
  match find (fun w => str_eqb (fst w) k) words with Some w => snd w | None => k end.

(** The line for a commit; [url] is the address of the commit. *)
Definition bullet (url : str -> str) (n : note) : str :=
  match n_scope n with Some s => lit "*(" ++ s ++ lit ")* " | None => [] end
  ++ (if n_breaking n then lit "[**breaking**] " else []) ++ capital (n_text n)
  ++ lit " - ([" ++ firstn 7 (n_hash n) ++ lit "](" ++ url (n_hash n) ++ lit "))".
End Upper.

(** Order of texts by their code points. *)
Inductive lex_lt : str -> str -> Prop :=
| Lex_nil : forall c s, lex_lt [] (c :: s)
| Lex_lt : forall c d s t, (c < d)%N -> lex_lt (c :: s) (d :: t)
| Lex_eq : forall c s t, lex_lt s t -> lex_lt (c :: s) (c :: t).

(** ** How a changelog is read: headings of two and three [#], and items

    The result: items without a section, sections without a release, and releases, each with its
    items without a section and its sections. *)
Definition items := list str.
Definition sections := list (str * items).
Definition log := list (str * items * sections).

Fixpoint lines_of (s : str) : list str :=
  match s with
  | [] => [[]]
  | c :: s' =>
      if ceq c c_nl then [] :: lines_of s'
      else match lines_of s' with l :: ls => (c :: l) :: ls | [] => [[c]] end
  end.
Definition behind (p l : str) : option str :=
  if str_eqb (firstn (length p) l) p then Some (skipn (length p) l) else None.
Definition read_line (l : str) (x : items * sections * log) : items * sections * log :=
  let '(es, ss, rs) := x in
  match behind (lit "## ") l with
  | Some t => ([], [], (t, es, ss) :: rs)
  | None =>
      match behind (lit "### ") l with
      | Some t => ([], (t, es) :: ss, rs)
      | None => match behind (lit "- ") l with Some e => (e :: es, ss, rs) | None => x end
      end
  end.
Definition read (s : str) : items * sections * log := fold_right read_line ([], [], []) (lines_of s).

(** ** What is meant to be listed

    A release has a version (written behind a [v] in the tag), the tag before it, a date and its commits. *)
Record issue := Issue { i_version : option str; i_previous : option str; i_date : str; i_notes : list note }.
Definition issue_ok (i : issue) : Prop :=
  (forall v, i_version i = Some v -> one_line v /\ ~ begins (lit "v") v)
  /\ (forall p, i_previous i = Some p -> one_line p) /\ one_line (i_date i)
  /\ Forall proper (i_notes i) /\ Forall (fun n => clear_kind (n_kind n)) (i_notes i).
(** [base] is where the repository is said to be. *)
Definition announced (base : str) (i : issue) : str :=
  match i_version i with
  | None => lit "[Unreleased]"
  | Some v =>
      lit "[" ++ v ++ lit "]"
      ++ match i_previous i with
         | Some p => lit "(" ++ base ++ lit "/compare/" ++ p ++ lit "..v" ++ v ++ lit ")"
         | None => []
         end ++ lit " - " ++ i_date i
  end.
Definition commit_url (base h : str) : str := base ++ lit "/commit/" ++ h.

(** A section for every kind of commit; in each the commits of this kind, in their order. *)
Definition lists (upper : char -> str) (base : str) (ns : list note) (ss : sections) : Prop :=
  exists ks, NoDup ks /\ (forall k, In k ks <-> In k (map n_kind ns))
    /\ StronglySorted lex_lt (map sort_key ks)
    /\ ss = map (fun k => (headline upper k,
              map (bullet upper (commit_url base)) (filter (fun n => str_eqb (n_kind n) k) ns))) ks.

(** Uppercase letters are no line ends, and the symbols of the headings have no uppercase form. *)
Definition sane (upper : char -> str) : Prop :=
  (forall c, c <> c_nl -> one_line (upper c)) /\ forall w, In w (map snd words) -> capital upper w = w.
(** A sane function: the letters of ASCII. *)
Definition ascii_upper (c : char) : str := [if (97 <=? c)%N && (c <=? 122)%N then (c - 32)%N else c].

(** ** Links: what stands between [](] and the next closing parenthesis *)
Fixpoint links (s : str) : list str :=
  match s with
  | [] => []
  | c :: s' =>
      match behind (lit "](") s with
      | Some t => take_while (fun d => negb (ceq d c_rpar)) t :: links s'
      | None => links s'
      end
  end.
(** Where the repository is (README.md:4). *)
Definition repository : str := lit "https://github.com/Flokkq/smd".
(** What is put in front of all addresses instead. *)
Definition wrong_base : str :=
  lit "https://github.com/Flokkq/https://github.com/orhun/git-cliff/blob/main/cliff.toml".
