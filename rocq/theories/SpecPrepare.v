(** * SpecPrepare: what is said about the repository after a release. *)
From Coq Require Import Ascii String.
From Verif Require Import Strings Release SpecRelease Prepare.
From Verif Require Cliff.
Open Scope list_scope.

(** The files of a release. *)
Definition cargo_file (p : str) : Prop :=
  p = lit "gfm/Cargo.toml" \/ exists d, ~ In 47%N d /\ p = lit "smd" ++ d ++ lit "/Cargo.toml".
Definition package_file (p : str) : Prop := p = lit "npm/smd/package.json".
Definition changelog_file (p : str) : Prop := p = lit "CHANGELOG.md".
Definition released_file (p : str) : Prop := cargo_file p \/ package_file p \/ changelog_file p.

(** A file that is there is changed line by line, one that is not there is not made. *)
Definition changed (R : str -> str -> Prop) (a b : option str) : Prop :=
  match a, b with
  | Some x, Some y => Forall2 R (lines x) (lines y)
  | None, None => True
  | _, _ => False
  end.

(** The files [u] are the files [t] with the version [v] in them. *)
Definition with_version (v : str) (t u : tree) : Prop := forall p,
  (cargo_file p -> changed (toml_change v) (get t p) (get u p)) /\
  (package_file p -> changed (package_change v) (get t p) (get u p)) /\
  (~ released_file p -> get u p = get t p).

(** The files [t] have a line of another version. *)
Definition stale (v : str) (t : tree) : Prop := exists p x l,
  cargo_file p /\ get t p = Some x /\ In l (lines x) /\ managed l /\ l <> managed_line v.

(** [a] stands in [s]. *)
Definition stands_in (a s : str) : Prop := exists x y, s = x ++ a ++ y.

(** The hash of a commit does not stand in its files. *)
Definition fresh (c : snapshot) : Prop := forall p x, get (s_tree c) p = Some x -> ~ stands_in (s_hash c) x.

Definition succeeds (ok : command -> bool) : Prop := forall c, ok c = true.
(** Only this command fails. *)
Definition only_fails (ok : command -> bool) (c : command) : Prop :=
  ok c = false /\ forall d, d <> c -> ok d = true.

(** A tag of a release points to the commit: a tag with a [v] and a digit behind it. *)
Definition points (r : repo) (v : str) (c : snapshot) : Prop :=
  In (v, s_hash c) (tags r) /\ exists a d b, v = a ++ 118%N :: d :: b /\ (48 <= d <= 57)%N.
Definition untagged (r : repo) (c : snapshot) : Prop := forall v, ~ points r v c.

(** The commits [l] are divided into releases at the tags; [t] is the name for what has no tag yet. *)
Inductive divided (r : repo) (t : option str) : list snapshot -> list Cliff.release -> Prop :=
| divided_none : divided r t [] []
| divided_some c l l' v p d h rs :
    (points r v c \/ (untagged r c /\ t = Some v /\ exists k, log r = c :: k)) ->
    Forall (untagged r) l -> d = s_day c -> h = map (fun c => (s_hash c, s_message c)) (c :: l) ->
    p = match rs with x :: _ => Cliff.version x | [] => None end ->
    Forall (fun x => Cliff.version x <> None) rs ->
    divided r t l' rs -> divided r t (c :: l ++ l') (Cliff.Release (Some v) p d h :: rs)
(** Only the newest commits may have no name. *)
| divided_new c l l' p d h rs :
    untagged r c -> (t = None \/ ~ exists k, log r = c :: k) ->
    Forall (untagged r) l -> d = s_day c -> h = map (fun c => (s_hash c, s_message c)) (c :: l) ->
    p = match rs with x :: _ => Cliff.version x | [] => None end ->
    Forall (fun x => Cliff.version x <> None) rs ->
    divided r t l' rs -> divided r t (c :: l ++ l') (Cliff.Release None p d h :: rs).

(** Cargo.lock names the version [v] for the crate [n]. *)
Definition lock_says (x n v : str) : Prop := exists a b,
  lines x = a ++ (lit "name = """ ++ n ++ lit """") :: (lit "version = """ ++ v ++ lit """") :: b.
(** A Cargo.toml says that the version is [v]. *)
Definition manifest_says (x v : str) : Prop := In (managed_line v) (lines x).
