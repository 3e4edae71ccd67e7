(** * SpecTag: what is said about the message of a tag. *)
From Coq Require Import Ascii String Sorted.
From Verif Require Import Strings Release Prepare SpecCliff.
Open Scope list_scope.

Section Upper.
Variable upper : char -> str.

(** The line for a commit. *)
Definition short (n : note) : str :=
  (if n_breaking n then lit "(breaking) " else []) ++ capital upper (n_text n) ++ lit " (" ++ firstn 7 (n_hash n) ++ lit ")".

(** A line for the release; then for every kind an empty line, the heading and the commits of this kind, in their order. *)
Definition told (tag : str) (ns : list note) (text : str) : Prop :=
  exists ks, NoDup ks /\ (forall k, In k ks <-> In k (map n_kind ns))
    /\ StronglySorted lex_lt (map sort_key ks)
    /\ text = lit "Release " ++ tag ++ [c_nl] ++
         flat_map (fun k => c_nl :: headline upper k ++ [c_nl] ++
           flat_map (fun n => lit "- " ++ short n ++ [c_nl]) (filter (fun n => str_eqb (n_kind n) k) ns)) ks.
End Upper.

(** Capital letters are neither blank nor number signs, and there is one for every char. *)
Definition letters (upper : char -> str) : Prop := sane upper /\
  forall c, is_whitespace c = false ->
    upper c <> [] /\ forall d, In d (upper c) -> is_whitespace d = false /\ (d = c_hash -> c = c_hash).

(** A commit whose kind is told from the others, and does not look like a comment. *)
Definition telling (n : note) : Prop := proper n /\ clear_kind (n_kind n) /\ ~ begins (lit "#") (n_kind n).

(** git allows no blanks in the name of a tag. *)
Definition tag_name (tag : str) : Prop := tag <> [] /\ forall c, In c tag -> is_whitespace c = false.

(** [a] are the commits behind the newest tag, the newest first. *)
Definition has_tag (r : repo) (c : snapshot) : Prop := exists v, In (v, s_hash c) (tags r).
Definition news (r : repo) (a : list snapshot) : Prop :=
  exists b, Prepare.log r = a ++ b /\ (forall c, In c a -> ~ has_tag r c) /\
    (b = [] \/ exists c b', b = c :: b' /\ has_tag r c).
(** The commits were written as [ns], the oldest first. *)
Definition written_as (a : list snapshot) (ns : list note) : Prop :=
  Forall2 (fun c n => s_hash c = n_hash n /\ s_message c = wrote n) (rev a) ns.
(** The commit of the release itself. *)
Definition own_note (tag h : str) : note := Note h (lit "chore") (Some (lit "release")) false (lit "prepare for " ++ tag).
