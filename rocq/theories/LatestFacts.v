(** * LatestFacts: pre-releases and what is offered. *)
From Coq Require Import Ascii String.
From Verif Require Import Strings StringsFacts NumberFacts Release SpecRelease ReleaseFacts ReleaseProps Latest.
Open Scope list_scope.

(** ** Vocabulary: semver.org, 9 and 10 *)
Definition a_pre_release (v : str) : Prop := exists x, read_version v = Some x /\ pre x <> [].
Definition a_release (v : str) : Prop := exists x, read_version v = Some x /\ pre x = [].
Definition a_version (v : str) : Prop := exists x, read_version v = Some x.
(** A hyphen in what stands behind the plus sign. *)
Definition hyphen_in_build (v : str) : Prop := exists a b, v = a ++ c_plus :: b /\ ~ In c_plus a /\ In c_minus b.
(** [v] is the last of the versions that is no pre-release. *)
Definition last_release (vs : list str) (v : str) : Prop :=
  exists a b, vs = a ++ v :: b /\ a_release v /\ Forall a_pre_release b.

Lemma split_some s : exists a l, split [c_dot] s = a :: l.
Proof. destruct (dotted_split s) as [_ N]. destruct (split [c_dot] s) as [|a l]; [contradiction|eauto]. Qed.

Lemma hyphen_iff v x : read_version v = Some x -> (In c_minus v <-> pre x <> [] \/ hyphen_in_build v).
Proof.
  unfold read_version. destruct (split_once c_plus v) as [[a b]|] eqn:P.
  - apply split_once_some in P as [-> NP]. cbv iota beta.
    assert (hyphen_in_build (a ++ c_plus :: b) <-> In c_minus b) as HB.
    { split.
      - intros (a' & b' & E & N & I). assert (split_once c_plus (a ++ c_plus :: b) = Some (a', b')) as Q by (apply split_once_some; auto).
        rewrite split_once_app in Q by exact NP. injection Q as <- <-. exact I.
      - intros I. exists a, b. auto. }
    rewrite HB. assert (In c_minus (a ++ c_plus :: b) <-> In c_minus a \/ In c_minus b) as IA.
    { rewrite in_app_iff. cbn [In]. split; [intros [I|[I|I]]; [auto|discriminate I|auto]|intuition]. }
    rewrite IA. destruct (split_once c_minus a) as [[a1 p]|] eqn:M.
    + apply split_once_some in M as [-> _]. destruct (split_some p) as (h & l & ->). intros R.
      split; [intros _; left|intros _; left; apply in_or_app; right; left; reflexivity].
      repeat match type of R with context [match ?e with _ => _ end] => destruct e; try discriminate R end.
      injection R as <-. discriminate.
    + apply split_once_none in M. intros R.
      assert (pre x = []) as ->.
      { repeat match type of R with context [match ?e with _ => _ end] => destruct e; try discriminate R end.
        injection R as <-. reflexivity. }
      intuition.
  - apply split_once_none in P. cbv iota beta.
    assert (~ hyphen_in_build v) as HB by (intros (a & b & -> & _); apply P, in_or_app; right; left; reflexivity).
    destruct (split_once c_minus v) as [[a1 p]|] eqn:M.
    + apply split_once_some in M as [-> _]. destruct (split_some p) as (h & l & ->). intros R.
      split; [intros _; left|intros _; apply in_or_app; right; left; reflexivity].
      repeat match type of R with context [match ?e with _ => _ end] => destruct e; try discriminate R end.
      injection R as <-. discriminate.
    + apply split_once_none in M. intros R.
      assert (pre x = []) as ->.
      { repeat match type of R with context [match ?e with _ => _ end] => destruct e; try discriminate R end.
        injection R as <-. reflexivity. }
      intuition.
Qed.

Lemma pre_release_iff v : pre_release (tag_of v) = true <-> In c_minus v.
Proof.
  unfold pre_release, ref, tag_of.
  change (contains [c_minus] (lit "refs/tags/" ++ 118%N :: v)) with (contains [c_minus] v).
  induction v as [|c v IH]; [split; [discriminate|intros []]|]. cbn [contains starts_with].
  destruct (ceq c_minus c) eqn:E; cbn [andb orb].
  - split; [intros _|reflexivity]. apply ceq_iff in E. left. symmetry. exact E.
  - rewrite IH. split; [intros I; right; exact I|]. intros [I|I]; [|exact I]. subst c. discriminate E.
Qed.

(** The tag is taken for a pre-release exactly if it is one or has a hyphen behind the plus sign. *)
Theorem taken_for v : a_version v -> (pre_release (tag_of v) = true <-> a_pre_release v \/ hyphen_in_build v).
Proof.
  intros [x R]. rewrite pre_release_iff, (hyphen_iff v x R). unfold a_pre_release. split; intros [H|H]; auto.
  - left. eauto.
  - destruct H as (y & R' & H). rewrite R in R'. injection R' as <-. auto.
Qed.
Lemma release_taken v : a_release v -> ~ hyphen_in_build v -> pre_release (tag_of v) = false.
Proof.
  intros (x & R & P) H. apply not_true_iff_false. rewrite taken_for by (eexists; exact R).
  intros [(y & R' & Q)|Q]; [|contradiction]. rewrite R in R'. injection R' as <-. contradiction.
Qed.
Lemma pre_taken v : a_pre_release v -> pre_release (tag_of v) = true.
Proof. intros A. apply taken_for; [destruct A as (x & R & _); eexists; exact R|now left]. Qed.

Lemma offered_app p a b old : offered p old (a ++ b) = offered p (offered p old a) b.
Proof. apply fold_left_app. Qed.
Lemma offered_last p v a old : p = GitHub \/ p = NpmPlatform -> offered p old (a ++ [tag_of v]) = Some v.
Proof. intros H. rewrite offered_app. destruct H as [-> | ->]; reflexivity. Qed.

Lemma offered_stays p v b : p = NpmBase \/ p = Homebrew -> Forall a_pre_release b ->
  offered p (Some v) (map tag_of b) = Some v.
Proof.
  intros H. induction b as [|w b IH]; intros F; [reflexivity|]. inversion F as [|? ? A F']; subst. 
  assert (offer p (Some v) (tag_of w) = Some v) as E by (destruct H as [-> | ->]; unfold offer; now rewrite (pre_taken w A)).
  unfold offered in *. cbn [map fold_left]. rewrite E. now apply IH.
Qed.
Lemma offer_release p v old : p = NpmBase \/ p = Homebrew -> a_release v -> ~ hyphen_in_build v ->
  offer p old (tag_of v) = Some v.
Proof. intros H A N. pose proof (release_taken v A N) as E. destruct H as [-> | ->]; unfold offer; rewrite E; [now destruct old|reflexivity]. Qed.

(** The package smd and Homebrew. *)
Theorem offered_release p vs v old : p = NpmBase \/ p = Homebrew -> last_release vs v -> ~ hyphen_in_build v ->
  offered p old (map tag_of vs) = Some v.
Proof.
  intros H (a & b & -> & A & F) N. rewrite map_app. cbn [map]. rewrite offered_app.
  change (offered p ?o (tag_of v :: ?l)) with (offered p (offer p o (tag_of v)) l).
  rewrite offer_release by assumption. now apply offered_stays.
Qed.
(** The other two offer pre-releases. *)
Theorem offered_pre p vs v old : p = GitHub \/ p = NpmPlatform -> a_pre_release v ->
  offered p old (map tag_of (vs ++ [v])) = Some v.
Proof. intros H _. rewrite map_app. now apply offered_last. Qed.
(** A package that is new. *)
Theorem offered_new v : a_pre_release v -> offered NpmBase None [tag_of v] = Some v.
Proof. reflexivity. Qed.
(** A hyphen in the name of the build. *)
Theorem offered_build p vs v w : p = NpmBase \/ p = Homebrew -> a_release v -> hyphen_in_build v ->
  forall old, offered p old (map tag_of vs) = Some w -> offered p old (map tag_of (vs ++ [v])) = Some w.
Proof.
  intros H (x & R & _) N old E. rewrite map_app, offered_app, E.
  assert (pre_release (tag_of v) = true) as T by (apply taken_for; [now exists x|now right]).
  destruct H as [-> | ->]; cbn [map offered fold_left offer]; unfold offered; cbn [fold_left]; unfold offer; now rewrite T.
Qed.
Lemma latest_ex : last_release (map lit ["1.0.0-rc.1"; "1.0.0"; "1.1.0-pre"]%string) (lit "1.0.0") /\
  ~ hyphen_in_build (lit "1.0.0") /\ a_release (lit "1.0.0+linux-x64") /\ hyphen_in_build (lit "1.0.0+linux-x64") /\
  a_pre_release (lit "0.1.3-pre").
Proof.
  split; [|split; [|split; [|split]]].
  - exists [lit "1.0.0-rc.1"], [lit "1.1.0-pre"]. split; [reflexivity|]. split.
    + eexists. split; vm_compute; reflexivity.
    + constructor; [|constructor]. eexists. split; [vm_compute; reflexivity|]. vm_compute. discriminate.
  - intros (a & b & E & _). assert (In c_plus (lit "1.0.0")) as I by (rewrite E; apply in_or_app; right; now left).
    revert I. vm_compute. intuition discriminate.
  - eexists. split; vm_compute; reflexivity.
  - exists (lit "1.0.0"), (lit "linux-x64"). split; [reflexivity|]. split; vm_compute; intuition discriminate.
  - eexists. split; [vm_compute; reflexivity|]. vm_compute. discriminate.
Qed.
