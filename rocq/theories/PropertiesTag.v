(** * PropertiesTag: the message of the tag that release.sh makes (C118, C119).

    As in PropertiesPrepare.v [upper] gives the capital letter for a char, [hash_of] the hash that git gives to
    a commit, [day] its day, and [ok] says which commands succeed. *)
From Coq Require Import Ascii String.
From Verif Require Import Strings Release Prepare.
From Verif Require Import SpecCliff SpecPrepare TagMessage SpecTag PrepareFacts TagFacts.
Open Scope list_scope.

(** ** C118: the message of the tag lists the commits of the release, each once, under the heading of its kind *)

(** If every command succeeds, the tag is new, and the messages behind the newest tag are as conventionalcommits.org has
    them: they are all listed, in their order, and behind them the commit of the release. *)
Theorem C118_listed_partial : forall upper hash_of day ok tag r c a ns,
  letters upper -> tag_name tag -> succeeds ok -> target (tags r) tag = None ->
  Prepare.log (release_sh upper hash_of day ok tag r) = c :: Prepare.log r -> one_line (s_hash c) -> ~ has_tag r c ->
  news r a -> written_as a ns -> Forall telling ns ->
  exists t, tag_message upper hash_of day ok tag r = Some t /\ told upper tag (ns ++ [own_note tag (s_hash c)]) t.
Proof. exact run_told. Qed.
Print Assumptions C118_listed_partial.

(** A message without a colon is listed as it is if it begins with one of the words, *)
Theorem C118_words_partial : forall upper hash_of day ok tag r c d,
  letters upper -> tag_name tag -> succeeds ok -> target (tags r) tag = None ->
  Prepare.log (release_sh upper hash_of day ok tag r) = c :: Prepare.log r -> ~ has_tag r c ->
  (exists a, news r a /\ In d a) -> ~ In c_colon (s_message d) -> one_line (s_message d) -> one_line (s_hash d) ->
  (exists k, In k (map fst words) /\ begins k (s_message d)) ->
  exists t, tag_message upper hash_of day ok tag r = Some t /\
    stands_in (lit "- " ++ capital upper (s_message d) ++ lit " (" ++ firstn 7 (s_hash d) ++ lit ")") t.
Proof. exact word_told. Qed.
Print Assumptions C118_words_partial.

(** and otherwise it leaves no trace. *)
Theorem C118_left_out_refuted : forall upper ts w a c b, ~ In c_colon (s_message c) ->
  (forall k, In k (map fst words) -> ~ begins k (s_message c)) -> ~ (exists v, In (v, s_hash c) ts) ->
  tag_changelog upper (Repo (a ++ c :: b) ts w) = tag_changelog upper (Repo (a ++ b) ts w).
Proof. exact not_told. Qed.
Print Assumptions C118_left_out_refuted.

(** git takes a heading that begins with a number sign for a comment. *)
Theorem C118_heading_refuted : forall upper tag n w,
  letters upper -> upper c_hash = [c_hash] -> tag_name tag ->
  proper n -> clear_kind (n_kind n) -> begins (lit "#") (n_kind n) ->
  tag_text tag (tag_changelog upper (Repo [Snapshot (n_hash n) (wrote n) [] []] [] w))
  = lit "Release " ++ tag ++ [c_nl; c_nl] ++ lit "- " ++ short upper n ++ [c_nl].
Proof. exact heading_lost. Qed.
Print Assumptions C118_heading_refuted.

Example C118_ex_letters : letters ascii_upper /\ ascii_upper c_hash = [c_hash] /\ tag_name (lit "v0.2.0").
Proof.
  split; [exact ascii_letters|]. split; [reflexivity|]. split; [discriminate|].
  intros c. cbn. intuition (subst; reflexivity).
Qed.

(** A repository with a tag; two commits behind it (TagFacts.v). *)
Example C118_ex_notes : news two_behind (firstn 2 (Prepare.log two_behind)) /\
  written_as (firstn 2 (Prepare.log two_behind)) two_notes /\ Forall telling two_notes.
Proof.
  split; [|split].
  - exists (skipn 2 (Prepare.log two_behind)). split; [reflexivity|]. split.
    + intros c. cbn. intros [<-|[<-|[]]] [v [E|[]]]; discriminate.
    + right. eexists _, _. split; [reflexivity|]. exists (lit "v0.1.0"). now left.
  - repeat constructor.
  - exact two_telling.
Qed.
Example C118_ex :
  tag_message ascii_upper (fun _ _ _ => lit "4444444444") (lit "4") all_ok (lit "v0.2.0") two_behind = Some (
    lit "Release v0.2.0" ++ [c_nl; c_nl] ++
    (10024%N :: lit " Features") ++ [c_nl] ++ lit "- (breaking) More (2222222)" ++ [c_nl; c_nl] ++
    (128027%N :: lit " Bug Fixes") ++ [c_nl] ++ lit "- Run it (3333333)" ++ [c_nl; c_nl] ++
    (128295%N :: lit "Chores") ++ [c_nl] ++ lit "- Prepare for v0.2.0 (4444444)" ++ [c_nl]).
Proof. vm_compute. reflexivity. Qed.

(** ** C119: the message of the tag and the changelog list the same commits

    The commit of the release is in the message and not in the changelog. *)
Theorem C119_own_refuted : forall upper hash_of day ok tag r c x,
  letters upper -> tag_name tag -> succeeds ok -> target (tags r) tag = None ->
  Prepare.log (release_sh upper hash_of day ok tag r) = c :: Prepare.log r -> one_line (s_hash c) -> ~ has_tag r c ->
  fresh c -> get (s_tree c) (lit "CHANGELOG.md") = Some x ->
  exists t, tag_message upper hash_of day ok tag r = Some t /\
    stands_in (lit "- " ++ short upper (own_note tag (s_hash c))) t /\ ~ stands_in (s_hash c) x.
Proof. exact run_own. Qed.
Print Assumptions C119_own_refuted.

Example C119_ex : Prepare.log after_small = small_commit :: Prepare.log small /\ one_line (s_hash small_commit) /\
  ~ has_tag small small_commit /\ fresh small_commit.
Proof.
  split; [apply small_made|]. split; [vm_compute; intuition discriminate|]. split; [now intros [v []]|exact small_fresh].
Qed.
