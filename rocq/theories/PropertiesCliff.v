(** * Properties: the changelog (C88, C89). *)
From Coq Require Import Ascii String Permutation Sorted.
From Verif Require Import Strings StringsFacts Cliff CliffData SpecCliff CliffFacts.
Open Scope list_scope.

(** ** C88: every commit is listed once, under the heading of its kind

    [read] (SpecCliff.v) reads the lines of a changelog as headings and items. *)

(** Releases with messages as conventionalcommits.org has them, whose kinds are words of the list or
    begin with none of them: nothing but the releases is read, each with its sections, in order. *)
Theorem C88_listed_partial : forall upper is_, sane upper -> Forall issue_ok is_ ->
  exists rs, read (changelog upper (map made is_)) = ([], [], rs)
    /\ Forall2 (fun i x => exists ss, x = (announced wrong_base i, [], ss)
                 /\ lists upper wrong_base (i_notes i) ss) is_ rs.
Proof. exact (fun upper is_ H => changelog_reads upper (proj1 H) (proj2 H) is_). Qed.
Print Assumptions C88_listed_partial.

(** What is listed: every commit once, under its heading. *)
Theorem C88_once_partial : forall upper ns ss, lists upper wrong_base ns ss ->
  Permutation (flat_map (fun s => map (pair (fst s)) (snd s)) ss)
    (map (fun n => (headline upper (n_kind n), bullet upper (commit_url wrong_base) n)) ns).
Proof. exact lists_once. Qed.
Print Assumptions C88_once_partial.

(** A message without a colon (such as git's own for merges) leaves no trace. *)
Theorem C88_left_out_refuted : forall upper v p d a b h m, ~ In c_colon m ->
  body upper (Release v p d (a ++ (h, m) :: b)) = body upper (Release v p d (a ++ b)).
Proof. exact left_out. Qed.
Print Assumptions C88_left_out_refuted.

(** A kind that only begins with a word of the list is listed under the heading of the word. *)
Theorem C88_beginning_refuted : forall upper v p d n w, sane upper ->
  issue_ok (Issue v p d []) -> proper n -> In w words -> begins (fst w) (n_kind n) ->
  read (changelog upper [made (Issue v p d [n])])
  = ([], [], [(announced wrong_base (Issue v p d [n]), [], [(snd w, [bullet upper (commit_url wrong_base) n])])]).
Proof. exact (fun upper v p d n w H => prefix_wins upper (proj1 H) (proj2 H) v p d n w). Qed.
Print Assumptions C88_beginning_refuted.

(** Kinds that differ in the case of their first letter get two sections with the same heading. *)
Theorem C88_two_sections_refuted : exists i t a b, issue_ok i /\
  read (changelog ascii_upper [made i])
  = ([], [], [(announced wrong_base i, [], [(t, [a]); (t, [b])])]).
Proof. exact two_sections. Qed.
Print Assumptions C88_two_sections_refuted.

(** The function for capital letters may be that of ASCII. *)
Example C88_ex_sane : sane ascii_upper.
Proof. exact ascii_sane. Qed.

(** A release that meets the hypotheses, and what is read. *)
Example C88_ex_issue :
  let i := Issue (Some (lit "1.0.0")) (Some (lit "v0.9.0")) (lit "2025-01-05")
    [ Note (lit "0123456789") (lit "fix") (Some (lit "ci")) false (lit "run");
      Note (lit "abcdef0123") (lit "docs") None true (lit "say so");
      Note (lit "9876543210") (lit "fix") None false (lit "it") ] in
  issue_ok i /\
  map (fun x => map (fun s => (fst s, length (snd s))) (snd x)) (snd (read (changelog ascii_upper [made i])))
  = [[(lit "Docs", 1); (128027%N :: lit " Bug Fixes", 2)]].
Proof. split; [exact three_notes | vm_compute; reflexivity]. Qed.

(** A merge, and a kind that begins with a word of the list. *)
Example C88_ex_merge : ~ In c_colon (lit "Merge pull request #4 from Flokkq/dev").
Proof. cbn. intuition discriminate. Qed.
Example C88_ex_fixture :
  let n := Note (lit "1") (lit "fixture") None false (lit "x") in
  proper n /\ begins (lit "fix") (n_kind n) /\ ~ In (n_kind n) (map fst words)
  /\ headline ascii_upper (n_kind n) = lit "Fixture".
Proof.
  split; [exact fixture_proper|]. split; [now exists (lit "ture")|].
  split; [cbn; intuition discriminate|reflexivity].
Qed.

(** /repo/CHANGELOG.md is what the model makes from the commits that it lists. *)
Example C88_file : changelog ascii_upper releases = file.
Proof. apply str_eqb_eq. vm_compute. reflexivity. Qed.

(** ** C89: the links of the changelog lead to the repository

    [remote.github.repo] is set to an address, not to a name (.cliff/default.toml:8). *)
Theorem C89_commit_refuted : forall upper rs r h m,
  In r rs -> In (h, m) (history r) -> read_commit h m <> None -> ~ In c_rpar h ->
  In (commit_url wrong_base h) (links (changelog upper rs)) /\ ~ begins repository (commit_url wrong_base h).
Proof. exact commit_links. Qed.
Print Assumptions C89_commit_refuted.

Theorem C89_compare_refuted : forall upper rs r v p,
  In r rs -> version r = Some v -> previous r = Some p -> ~ In c_rpar v -> ~ In c_rpar p ->
  In (wrong_base ++ lit "/compare/" ++ p ++ lit ".." ++ v) (links (changelog upper rs))
  /\ ~ begins repository (wrong_base ++ lit "/compare/" ++ p ++ lit ".." ++ v).
Proof. exact compare_links. Qed.
Print Assumptions C89_compare_refuted.

(** What holds: the line of a commit has one link, which ends with the whole hash. *)
Theorem C89_one_link_partial : forall upper n,
  ~ In c_rbrk (match n_scope n with Some s => s | None => [] end) ->
  ~ In c_rbrk (capital upper (n_text n)) -> ~ In c_rbrk (n_hash n) -> ~ In c_rpar (n_hash n) ->
  links (bullet upper (commit_url wrong_base) n) = [wrong_base ++ lit "/commit/" ++ n_hash n].
Proof. exact bullet_links. Qed.
Print Assumptions C89_one_link_partial.

(** All links of /repo/CHANGELOG.md. *)
Example C89_ex_file :
  length (links file) <> 0 /\ forallb (starts_with wrong_base) (links file) = true
  /\ existsb (starts_with repository) (links file) = false.
Proof. vm_compute. repeat split. discriminate. Qed.
Example C89_ex_commit :
  read_commit (lit "ccfb4d2") (lit "fix(ci): attempt") <> None /\ ~ In c_rpar (lit "ccfb4d2").
Proof. split; [vm_compute; discriminate | cbn; intuition discriminate]. Qed.
