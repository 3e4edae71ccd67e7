(** * SpecCli: words for stating what smd does to files.

    Independent of Cli.v: names of the same file, choices of the outside world,
    and replacing the extension of a file name. *)
From Coq Require Import Ascii String.
From Verif Require Import Strings Utf8 System Config.
Open Scope list_scope.

(** [p] and [q] are names of the same file, present or not: they lead to the same
    name through symbolic links, or to the same inode through hard links. *)
Definition aliases (f : fs) (p q : path) : Prop :=
  resolve max_links f p = resolve max_links f q \/
  (exists i, inode_of f p = Some i /\ inode_of f q = Some i).

(** A process id that no inode carries. *)
Definition new_process (m : machine) (f : fs) : Prop :=
  forall p k, names f p <> Some (NFile (pid m, k)).

(** Nothing but the file named [p] differs between [f] and [f']. *)
Definition only_changes (f : fs) (p : path) (f' : fs) : Prop :=
  (forall q, ~ aliases f p q -> contents f' q = contents f q) /\
  (forall q, resolve max_links f p <> Some q -> names f' q = names f q).

(** The system takes all bytes of a write. *)
Definition no_short (x : choice) : Prop := match x with Short _ => False | _ => True end.

(** A name that a file or directory can have. *)
Definition proper_name (n : str) : Prop :=
  n <> [] /\ n <> lit "." /\ n <> lit ".." /\ ~ In 47%N n /\ ~ In 0%N n /\ valid n.

(** The name means itself in a url: no character of it ends the path, separates names or is dropped, and no three
    characters of it stand for a byte. *)
Definition means_itself_in_url (n : str) : Prop :=
  (forall c, In c (lit "#?\" ++ [c_tab; c_nl; c_cr]) -> ~ In c n) /\
  (forall a h l b, In h (lit "0123456789abcdefABCDEF") -> In l (lit "0123456789abcdefABCDEF") ->
     n <> a ++ lit "%" ++ [h; l] ++ b).

(** A directory whose path means itself in a url; a letter and a bar at the beginning are taken for a drive. *)
Definition url_safe (d : path) : Prop :=
  Forall means_itself_in_url d /\
  (forall x r, In x (lit "abcdefghijklmnopqrstuvwxyzABCDEFGHIJKLMNOPQRSTUVWXYZ") -> d <> ([x] ++ lit "|") :: r).

(** A directory that the browser finds. *)
Definition web_dir (d : path) : Prop := Forall proper_name d /\ url_safe d.

(** The character is the hexadecimal digit of that value. *)
Definition digit16 (h : char) (x : nat) : Prop :=
  nth_error (lit "0123456789abcdef") x = Some h \/ nth_error (lit "0123456789ABCDEF") x = Some h.

(** [out] is the path [input] with its extension replaced by [ext], or added if
    it has none.  A dot at the beginning of a name begins no extension. *)
Inductive replaced (ext : str) : path -> path -> Prop :=
| replaced_ext dir stem e : stem <> [] -> ~ In c_dot e ->
    replaced ext (dir ++ [stem ++ lit "." ++ e]) (dir ++ [stem ++ lit "." ++ ext])
| replaced_none dir name : ~ In c_dot name ->
    replaced ext (dir ++ [name]) (dir ++ [name ++ lit "." ++ ext])
| replaced_hidden dir name : ~ In c_dot name ->
    replaced ext (dir ++ [lit "." ++ name]) (dir ++ [lit "." ++ name ++ lit "." ++ ext])
| replaced_root : replaced ext [] [].

(** The directory of a path and its name without extension. *)
Inductive stem_of : path -> path -> str -> Prop :=
| stem_ext dir stem e : stem <> [] -> ~ In c_dot e -> stem_of (dir ++ [stem ++ lit "." ++ e]) dir stem
| stem_none dir name : ~ In c_dot name -> stem_of (dir ++ [name]) dir name
| stem_hidden dir name : ~ In c_dot name -> stem_of (dir ++ [lit "." ++ name]) dir (lit "." ++ name).

(** The path has the extension [e]. *)
Inductive has_extension (e : str) : path -> Prop :=
| has_ext dir stem : stem <> [] -> ~ In c_dot e -> has_extension e (dir ++ [stem ++ lit "." ++ e]).

(** A file can be created or truncated under the name [p]. *)
Definition creatable (f : fs) (p : path) : Prop :=
  exists q, resolve max_links f p = Some q /\
    ((exists i, names f q = Some (NFile i)) \/
     (names f q = None /\ names f (parent q) = Some NDir)).

(** The call does not fail. *)
Definition not_failing (x : choice) : Prop := match x with Fail _ => False | _ => True end.

(** The environment variable [name] gives the setting [key]: its name, in small
    letters, is smd__ and the key with two underscores for every dot. *)
Definition sets (name key : str) : Prop :=
  exists rest, to_lowercase name = lit "smd__" ++ rest /\ replace (lit "__") (lit ".") rest = key.

(** What the values of settings mean. *)
Inductive means_action : value -> parse_error_action -> Prop :=
| means_abort : means_action (VString (lit "abort")) Abort
| means_skip : means_action (VString (lit "skip")) Skip
| means_serialize : means_action (VString (lit "serialize")) SerializeIt.
Inductive means_bool : value -> bool -> Prop :=
| means_itself b : means_bool (VBool b) b
| means_true s : In (to_lowercase s) [lit "1"; lit "true"; lit "on"; lit "yes"] ->
    means_bool (VString s) true
| means_false s : In (to_lowercase s) [lit "0"; lit "false"; lit "off"; lit "no"] ->
    means_bool (VString s) false.

(** A file system given by lists, for examples. *)
Definition disk (files : list (path * node)) (stored : list (inode * bytes)) : fs :=
  {| names := fun p => match List.find (fun e => path_eqb (fst e) p) files with
                       | Some e => Some (snd e) | None => None end;
     data := fun i => match List.find (fun e => ino_eqb (fst e) i) stored with
                      | Some e => snd e | None => [] end |}.
