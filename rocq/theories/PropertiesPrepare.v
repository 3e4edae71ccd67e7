(** * Properties: the repository after release.sh (C98-C102). *)
From Coq Require Import Ascii String.
From Verif Require Import Strings Release SpecRelease Prepare SpecPrepare PrepareFacts.
From Verif Require Cliff SpecCliff CliffFacts.
Open Scope list_scope.

(** In all theorems [upper] gives the capital letter for a char, [hash_of] the hash that git gives to
    a commit, [day] its day, and [ok] says which commands succeed. *)

(** ** C98: the tag points to a commit with the version and the changelog of the release *)

(** If every command succeeds and the tag is new: the tag points to the newest commit, its files are
    those of the working tree with the version in them, and the changelog is that of git-cliff. *)
Theorem C98_prepared_partial : forall upper hash_of day ok v r,
  version_text v -> succeeds ok -> target (tags r) (tag_of v) = None ->
  let r' := release_sh upper hash_of day ok (tag_of v) r in
  exists c l, log r' = c :: l /\ (l = log r \/ c :: l = log r) /\
    target (tags r') (tag_of v) = Some (s_hash c) /\
    with_version v (work r) (s_tree c) /\
    get (s_tree c) (lit "CHANGELOG.md") = Some (cliff upper r (Some (tag_of v))).
Proof. exact all_succeeds. Qed.
Print Assumptions C98_prepared_partial.

(** If only the commit fails, the tag is made all the same: on the commit before, with the old versions. *)
Theorem C98_commit_refuted : forall upper hash_of day ok v r c l,
  only_fails ok Commit -> log r = c :: l -> target (tags r) (tag_of v) = None ->
  let r' := release_sh upper hash_of day ok (tag_of v) r in
  log r' = log r /\ target (tags r') (tag_of v) = Some (s_hash c) /\
  (work r = s_tree c -> stale v (s_tree c) -> ~ with_version v (work r) (s_tree c)).
Proof. exact commit_fails. Qed.
Print Assumptions C98_commit_refuted.

(** If only git-cliff fails, the tag points to a commit with an empty changelog. *)
Theorem C98_cliff_refuted : forall upper hash_of day ok v r,
  only_fails ok (Cliff true) -> target (tags r) (tag_of v) = None ->
  let r' := release_sh upper hash_of day ok (tag_of v) r in
  exists c l, log r' = c :: l /\ target (tags r') (tag_of v) = Some (s_hash c) /\
    get (s_tree c) (lit "CHANGELOG.md") = Some [].
Proof. exact cliff_fails. Qed.
Print Assumptions C98_cliff_refuted.

Example C98_ex_all : version_text (lit "0.2.0") /\ succeeds all_ok /\ target (tags small) (tag_of (lit "0.2.0")) = None.
Proof. split; [now split|]. split; [exact small_ok|reflexivity]. Qed.
Example C98_ex_files :
  log after_small = small_commit :: log small /\
  get (s_tree small_commit) (lit "smd/Cargo.toml") = Some (lit "version = ""0.2.0"" # managed by release.sh" ++ [c_nl]) /\
  get (s_tree small_commit) (lit "npm/smd/package.json") = Some (lit "  ""version"": ""0.2.0""," ++ [c_nl]) /\
  get (s_tree small_commit) (lit "src/main.rs") = Some (lit "fn main() {}").
Proof. vm_compute. repeat split. Qed.
Example C98_ex_commit : only_fails (but is_commit) Commit /\ work small = s_tree (hd small_commit (log small)) /\
  stale (lit "0.2.0") small_files.
Proof. split; [exact small_commit_fails|]. split; [reflexivity|exact small_stale]. Qed.
Example C98_ex_cliff : only_fails (but is_cliff) (Cliff true).
Proof. exact small_cliff_fails. Qed.

(** ** C99: the commit of a release changes the versions and the changelog and nothing else *)

(** If the working tree is clean. *)
Theorem C99_clean_partial : forall upper hash_of day ok tag r c p, tag <> [] ->
  log (release_sh upper hash_of day ok tag r) = c :: log r ->
  (forall q, get (work r) q = get (head_tree (log r)) q) ->
  ~ released_file p -> get (s_tree c) p = get (head_tree (log r)) p.
Proof. exact clean_tree. Qed.
Print Assumptions C99_clean_partial.

(** Every other file of the working tree that is new or changed is committed, too. *)
Theorem C99_dirty_refuted : forall upper hash_of day ok tag r p x, tag <> [] ->
  ok Add = true -> ok Commit = true -> ~ released_file p ->
  get (work r) p = Some x -> get (head_tree (log r)) p <> Some x ->
  exists c, log (release_sh upper hash_of day ok tag r) = c :: log r /\ get (s_tree c) p = Some x.
Proof. exact dirty_tree. Qed.
Print Assumptions C99_dirty_refuted.

Example C99_ex_clean : log after_small = small_commit :: log small /\ work small = head_tree (log small) /\
  ~ released_file (lit "src/main.rs").
Proof. split; [apply small_made|]. split; [reflexivity|]. now apply not_released. Qed.
Example C99_ex_dirty : ~ released_file (lit "notes.txt") /\ get (work small_dirty) (lit "notes.txt") = Some (lit "secret") /\
  get (head_tree (log small_dirty)) (lit "notes.txt") = None.
Proof. split; [now apply not_released|]. split; reflexivity. Qed.

(** ** C100: the changelog in the repository is the one that git-cliff makes of it *)

(** The commit of the release is not in the changelog that it contains; whoever runs git-cliff
    afterwards, with or without a tag, gets one in which it is. *)
Theorem C100_changelog_refuted : forall upper hash_of day ok tag r c t x, tag <> [] ->
  log (release_sh upper hash_of day ok tag r) = c :: log r -> fresh c ->
  get (s_tree c) (lit "CHANGELOG.md") = Some x ->
  stands_in (s_hash c) (cliff upper (release_sh upper hash_of day ok tag r) t) /\ ~ stands_in (s_hash c) x.
Proof. exact changelog_again. Qed.
Print Assumptions C100_changelog_refuted.

(** What is in it: every commit before, in one of the releases and in order; *)
Theorem C100_every_partial : forall r t,
  flat_map Cliff.history (releases r t) = map (fun c => (s_hash c, s_message c)) (log r).
Proof. exact releases_all. Qed.
Print Assumptions C100_every_partial.

(** divided at the tags of releases, what is behind the last of them under the new tag, with the
    days and the tags before; *)
Theorem C100_divided_partial : forall r t, NoDup (map s_hash (log r)) -> divided r t (log r) (releases r t).
Proof. exact releases_divided. Qed.
Print Assumptions C100_divided_partial.

(** and the line of every commit with a message as conventionalcommits.org has it. *)
Theorem C100_listed_partial : forall upper r t c n, In c (log r) -> SpecCliff.proper n ->
  s_hash c = SpecCliff.n_hash n -> s_message c = SpecCliff.wrote n ->
  stands_in (lit "- " ++ SpecCliff.bullet upper (SpecCliff.commit_url SpecCliff.wrong_base) n) (cliff upper r t).
Proof. exact proper_listed. Qed.
Print Assumptions C100_listed_partial.

Example C100_ex : log after_small = small_commit :: log small /\ fresh small_commit.
Proof. split; [apply small_made|exact small_fresh]. Qed.
Example C100_ex_releases :
  map (fun x => (Cliff.version x, Cliff.previous x, map snd (Cliff.history x))) (releases after_small (Some (lit "v0.3.0"))) =
  [(Some (lit "v0.2.0"), None, [lit "chore(release): prepare for v0.2.0"; lit "feat: start"])].
Proof. reflexivity. Qed.

Example C100_ex_divided :
  map (fun x => (Cliff.version x, Cliff.previous x, Cliff.date x)) (releases three (Some (lit "v3"))) =
  [(Some (lit "v3"), Some (lit "v2"), lit "3"); (Some (lit "v2"), Some (lit "v1"), lit "2"); (Some (lit "v1"), None, lit "1")]
  /\ NoDup (map s_hash (log three)).
Proof. split; [reflexivity|]. repeat constructor; cbn; intuition discriminate. Qed.

(** ** C101: a release that is made twice is the same as one that is made once *)

(** The second run makes another commit, and the tag stays on the first. *)
Theorem C101_twice_refuted : forall upper hash_of day ok ok' tag r c, tag <> [] ->
  let r1 := release_sh upper hash_of day ok tag r in
  let r2 := release_sh upper hash_of day ok' tag r1 in
  log r1 = c :: log r -> ok' Add = true -> ok' Commit = true -> ok' (Cliff true) = true -> fresh c ->
  target (tags r1) tag = Some (s_hash c) ->
  exists c', log r2 = c' :: c :: log r /\ target (tags r2) tag = Some (s_hash c).
Proof. exact run_again. Qed.
Print Assumptions C101_twice_refuted.

(** No run moves or removes a tag, whatever fails. *)
Theorem C101_tags_partial : forall upper hash_of day ok tag r h, target (tags r) tag = Some h ->
  tags (release_sh upper hash_of day ok tag r) = tags r.
Proof. exact tag_stays. Qed.
Print Assumptions C101_tags_partial.

(** Without a tag nothing happens. *)
Theorem C101_no_tag_partial : forall upper hash_of day ok r, release_sh upper hash_of day ok [] r = r.
Proof. exact no_tag_nothing. Qed.
Print Assumptions C101_no_tag_partial.

Example C101_ex : log after_small = small_commit :: log small /\ fresh small_commit /\
  target (tags after_small) (lit "v0.2.0") = Some (s_hash small_commit).
Proof. split; [apply small_made|]. split; [exact small_fresh|apply small_made]. Qed.

(** ** C102: the lock file of a release fits its manifests *)

(** Every release of a version that is not yet in Cargo.lock: the tagged commit has the version in
    its manifests, and not in Cargo.lock. *)
Theorem C102_lock_refuted : forall upper hash_of day ok v r p y x n, version_text v -> succeeds ok ->
  target (tags r) (tag_of v) = None ->
  cargo_file p -> get (work r) p = Some y -> (exists l, In l (lines y) /\ managed l) ->
  get (work r) (lit "Cargo.lock") = Some x -> ~ lock_says x n v ->
  let r' := release_sh upper hash_of day ok (tag_of v) r in
  exists c y' x', In c (log r') /\ target (tags r') (tag_of v) = Some (s_hash c) /\
    get (s_tree c) p = Some y' /\ manifest_says y' v /\
    get (s_tree c) (lit "Cargo.lock") = Some x' /\ ~ lock_says x' n v.
Proof. exact lock_stale. Qed.
Print Assumptions C102_lock_refuted.

Example C102_ex : cargo_file (lit "smd/Cargo.toml") /\
  get (work locked) (lit "smd/Cargo.toml") = Some (lit "version = ""0.1.0"" # managed by release.sh" ++ [c_nl]) /\
  managed (lit "version = ""0.1.0"" # managed by release.sh") /\
  get (work locked) (lit "Cargo.lock") = Some small_lock /\
  ~ lock_says small_lock (lit "smd") (lit "0.2.0") /\ lock_says small_lock (lit "smd") (lit "0.1.0").
Proof.
  split; [right; exists []; split; [tauto|reflexivity]|]. split; [reflexivity|].
  split; [now exists (lit """0.1.0"""), c_dot|]. split; [reflexivity|exact locked_old].
Qed.
