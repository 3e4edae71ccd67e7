(** * PrepareFacts: proofs about [Prepare]. *)
From Coq Require Import Ascii String.
From Verif Require Import Strings StringsFacts Release SpecRelease ReleaseFacts ReleaseProps Prepare SpecPrepare.
From Verif Require Cliff SpecCliff CliffFacts.
Open Scope list_scope.

(** ** Trees *)
Lemma str_eqb_iff a b : str_eqb a b = true <-> a = b.
Proof. apply str_eqb_eq. Qed.

Lemma str_eqb_neq a b : a <> b -> str_eqb a b = false.
Proof. intros N. destruct (str_eqb a b) eqn:E; [|reflexivity]. apply str_eqb_iff in E. contradiction. Qed.

Lemma get_put t p x q : get (put t p x) q = if str_eqb q p then Some x else get t q.
Proof.
  induction t as [|[k y] t IH]; cbn [put get]; [destruct (str_eqb q p); reflexivity|].
  destruct (str_eqb p k) eqn:E; cbn [get].
  - apply str_eqb_iff in E. subst k. destruct (str_eqb q p); reflexivity.
  - rewrite IH. destruct (str_eqb q k) eqn:F; [|reflexivity].
    apply str_eqb_iff in F. subst k. destruct (str_eqb q p) eqn:G; [|reflexivity].
    apply str_eqb_iff in G. subst q. rewrite str_eqb_refl in E. discriminate.
Qed.

Lemma get_in t p x : get t p = Some x -> In p (map fst t).
Proof.
  induction t as [|[q y] t IH]; cbn [get]; [discriminate|]. intros E.
  destruct (str_eqb p q) eqn:F; [apply str_eqb_iff in F; left; now subst|right; auto].
Qed.

Lemma opt_eqb_iff a b : opt_eqb a b = true <-> a = b.
Proof.
  destruct a as [a|], b as [b|]; cbn [opt_eqb]; try (split; [discriminate|congruence]); [|tauto].
  rewrite str_eqb_iff. split; congruence.
Qed.

Lemma same_iff t u : same t u = true <-> forall p, get t p = get u p.
Proof.
  unfold same. rewrite forallb_forall. split.
  - intros H p. destruct (get t p) as [x|] eqn:E.
    + specialize (H p (in_or_app _ _ _ (or_introl (get_in _ _ _ E)))). apply opt_eqb_iff in H. congruence.
    + destruct (get u p) as [y|] eqn:F; [|reflexivity].
      specialize (H p (in_or_app _ _ _ (or_intror (get_in _ _ _ F)))). apply opt_eqb_iff in H. congruence.
  - intros H p _. apply opt_eqb_iff. apply H.
Qed.

Lemma get_on b w f t p : get (on b w f t) p = if b && w p then option_map f (get t p) else get t p.
Proof.
  unfold on. induction t as [|[q x] t IH]; cbn [map get fst snd]; [destruct (b && w p); reflexivity|].
  destruct (str_eqb p q) eqn:E.
  - apply str_eqb_iff in E. subst q. destruct (b && w p); cbn [get]; rewrite str_eqb_refl; reflexivity.
  - destruct (b && w q); cbn [get]; rewrite E, IH; reflexivity.
Qed.

(** ** Paths *)
Lemma dir_iff s : dir_then_toml s = true <-> exists d, ~ In 47%N d /\ s = d ++ lit "/Cargo.toml".
Proof.
  split.
  - induction s as [|c s IH]; cbn [dir_then_toml]; intros H; [discriminate|].
    apply orb_prop in H as [H|H].
    + apply str_eqb_iff in H. exists []. split; [tauto|exact H].
    + apply andb_prop in H as [C H]. destruct (IH H) as (d & D & ->). exists (c :: d). split; [|reflexivity].
      intros [X|X]; [|auto]. apply negb_true_iff in C. apply ceq_neq in C. congruence.
  - intros (d & D & ->). induction d as [|c d IH]; [reflexivity|].
    cbn [app dir_then_toml]. apply orb_true_iff. right. apply andb_true_intro. split.
    + apply negb_true_iff. apply ceq_neq. intros ->. apply D. now left.
    + apply IH. intros X. apply D. now right.
Qed.

Lemma smd_iff p : smd_path p = true <-> exists d, ~ In 47%N d /\ p = lit "smd" ++ d ++ lit "/Cargo.toml".
Proof.
  unfold smd_path. rewrite andb_true_iff, dir_iff. split.
  - intros [S (d & D & E)]. exists d. split; [exact D|]. rewrite <- E.
    apply CliffFacts.begins_spec in S as [x ->]. reflexivity.
  - intros (d & D & ->). split; [reflexivity|]. now exists d.
Qed.

Lemma cargo_iff p : cargo_file p <-> smd_path p = true \/ p = gfm_path.
Proof. unfold cargo_file. rewrite smd_iff. tauto. Qed.

Lemma smd_not p q : smd_path p = true -> smd_path q = false -> p <> q.
Proof. congruence. Qed.

Lemma cargo_apart p : cargo_file p -> p <> package_path /\ p <> changelog_path.
Proof.
  intros [->|(d & _ & ->)]; split; discriminate.
Qed.

(** ** The files of a release *)
Section Edit.
Variable v : str.
Hypothesis V : version_text v.
Variable ok : command -> bool.
Hypothesis O : forall n, ok (Sed n) = true.

Lemma toml_edit_changed x : Forall2 (toml_change v) (lines x) (lines (toml_edit (tag_of v) x)).
Proof.
  unfold toml_edit. rewrite strip_tag. destruct V as [_ V']. apply version_plain in V'.
  rewrite toml_parts by exact V'. rewrite sed_toml by exact V. apply Forall2_map. intros l. apply toml_line_change.
Qed.

Lemma package_edit_changed x :
  Forall2 (package_change v) (lines x) (lines (dep_edit (tag_of v) (version_edit (tag_of v) x))).
Proof.
  unfold dep_edit, version_edit. rewrite strip_tag. pose proof V as [_ V']. apply version_plain in V'.
  rewrite json_parts, dep_parts_eq by exact V'. rewrite sed_package by exact V.
  apply Forall2_map. intros l. now apply package_line_change.
Qed.

Lemma edit_tree_version t : forall p,
  (cargo_file p -> changed (toml_change v) (get t p) (get (edit_tree ok (tag_of v) t) p)) /\
  (package_file p -> changed (package_change v) (get t p) (get (edit_tree ok (tag_of v) t) p)) /\
  (~ cargo_file p -> ~ package_file p -> get (edit_tree ok (tag_of v) t) p = get t p).
Proof.
  intros p. unfold edit_tree. rewrite !get_on, !O. cbn [andb]. repeat split.
  - intros C. pose proof (cargo_apart p C) as [A _].
    rewrite (str_eqb_neq package_path p) by congruence.
    apply cargo_iff in C as [C| ->].
    + rewrite C, str_eqb_neq by (intros <-; discriminate C).
      destruct (get t p); cbn [option_map changed]; [apply toml_edit_changed|exact I].
    + rewrite str_eqb_refl. change (smd_path gfm_path) with false. cbv iota.
      destruct (get t gfm_path); cbn [option_map changed]; [apply toml_edit_changed|exact I].
  - intros P. assert (P' : p = package_path) by exact P. clear P. subst p.
    rewrite str_eqb_refl. change (str_eqb gfm_path package_path) with false.
    change (smd_path package_path) with false. cbv iota.
    destruct (get t package_path); cbn [option_map changed]; [apply package_edit_changed|exact I].
  - intros C P. rewrite (str_eqb_neq package_path) by (intros X; apply P; symmetry; exact X).
    rewrite (str_eqb_neq gfm_path) by (intros X; apply C; left; symmetry; exact X).
    destruct (smd_path p) eqn:E; [|reflexivity]. exfalso. apply C. apply cargo_iff. now left.
Qed.
End Edit.

(** Whatever the tag and whatever fails: other files stay. *)
Lemma edit_tree_other ok tag t p : ~ cargo_file p -> ~ package_file p -> get (edit_tree ok tag t) p = get t p.
Proof.
  intros C P. unfold edit_tree. rewrite !get_on.
  rewrite (str_eqb_neq package_path) by (intros X; apply P; symmetry; exact X).
  rewrite (str_eqb_neq gfm_path) by (intros X; apply C; left; symmetry; exact X).
  destruct (smd_path p) eqn:E; [|now rewrite !andb_false_r]. exfalso. apply C. apply cargo_iff. now left.
Qed.

(** ** The changelog of the repository *)
Definition noted (l : list snapshot) : list (str * str) := map (fun c => (s_hash c, s_message c)) l.

Lemma chunks_all name l : flat_map Cliff.history (chunks name l) = noted l.
Proof.
  induction l as [|c l IH]; [reflexivity|]. cbn [chunks noted map]. fold (noted l). rewrite <- IH.
  destruct (chunks name l) as [|[[t|] p d es] rs]; reflexivity.
Qed.

Lemma chained_all rs : flat_map Cliff.history (chained rs) = flat_map Cliff.history rs.
Proof.
  induction rs as [|r rs IH]; [reflexivity|]. cbn [chained flat_map]. rewrite IH. reflexivity.
Qed.

Lemma releases_all r tag : flat_map Cliff.history (releases r tag) = noted (log r).
Proof. unfold releases. rewrite chained_all. apply chunks_all. Qed.

Lemma commit_listed upper r tag c n : In c (log r) -> Cliff.read_commit (s_hash c) (s_message c) = Some n ->
  stands_in (s_hash c) (cliff upper r tag).
Proof.
  intros I E.
  assert (J : In (s_hash c, s_message c) (flat_map Cliff.history (releases r tag))).
  { rewrite releases_all. apply in_map_iff. now exists c. }
  apply in_flat_map in J as (x & X & J).
  destruct (CliffFacts.within_commit upper _ _ _ _ _ X J E) as (a & b & W).
  unfold cliff. rewrite W. unfold Cliff.entry. rewrite (CliffFacts.read_commit_hash _ _ _ E).
  set (x1 := match Cliff.scope n with Some _ => _ | None => _ end).
  set (x2 := if Cliff.breaking n then _ else _). set (x3 := Cliff.upper_first upper _).
  exists (a ++ lit "- " ++ x1 ++ x2 ++ x3 ++ lit " - ([" ++ firstn 7 (s_hash c) ++ lit "](" ++ Cliff.remote_url ++ lit "/commit/"),
    (lit "))" ++ b).
  rewrite <- !app_assoc. reflexivity.
Qed.

Lemma read_prepare h tag : exists n, Cliff.read_commit h (prepare_message tag) = Some n.
Proof. eexists. reflexivity. Qed.

(** ** The script *)
Section Script.
Variable upper : char -> str.
Variable hash_of : list snapshot -> str -> tree -> str.
Variable day : str.

Notation run := (release_sh upper hash_of day).

(** The commit that is made. *)
Definition made ok tag r : snapshot :=
  Snapshot (hash_of (log r) (prepare_message tag) (prepared upper ok tag r)) (prepare_message tag) day
    (prepared upper ok tag r).

Lemma prepared_changelog ok tag r :
  get (prepared upper ok tag r) changelog_path = Some (if ok (Cliff true) then cliff upper r (Some tag) else []).
Proof. unfold prepared. rewrite get_put, str_eqb_refl. reflexivity. Qed.

Lemma prepared_other ok tag r p : p <> changelog_path -> get (prepared upper ok tag r) p = get (edit_tree ok tag (work r)) p.
Proof. intros N. unfold prepared. rewrite get_put, str_eqb_neq by exact N. reflexivity. Qed.

Lemma run_cases ok tag r : tag <> [] ->
  let s := same (prepared upper ok tag r) (head_tree (log r)) in
  let l := if ok Add && ok Commit && negb s then made ok tag r :: log r else log r in
  log (run ok tag r) = l /\ work (run ok tag r) = prepared upper ok tag r /\
  tags (run ok tag r) = match ok TagIt, target (tags r) tag, l with
                        | true, None, c :: _ => (tag, s_hash c) :: tags r
                        | _, _, _ => tags r
                        end.
Proof.
  intros T. destruct tag as [|t0 tag]; [congruence|]. clear T. cbv zeta. unfold release_sh. cbn [is_empty].
  set (tg := t0 :: tag). unfold commit_all. cbn [log tags work].
  set (p := prepared upper ok tg r). unfold tag_head.
  destruct (ok Add && ok Commit && negb (same p (head_tree (log r)))); cbn [log tags work].
  - destruct (ok TagIt), (target (tags r) tg); cbn [log tags work]; repeat split; reflexivity.
  - destruct (ok TagIt), (target (tags r) tg), (log r) eqn:L; cbn [log tags work]; rewrite ?L; repeat split; reflexivity.
Qed.

Lemma prepared_version ok v r : version_text v -> (forall n, ok (Sed n) = true) ->
  with_version v (work r) (prepared upper ok (tag_of v) r).
Proof.
  intros V O p. destruct (edit_tree_version v V ok O (work r) p) as (A & B & C). repeat split.
  - intros F. rewrite prepared_other by apply (cargo_apart p F). auto.
  - intros F. rewrite prepared_other by (rewrite F; discriminate). auto.
  - intros F. unfold released_file, changelog_file in F. rewrite prepared_other by (intros ->; apply F; right; now right).
    apply C; tauto.
Qed.

Lemma with_version_ext v t u u' : (forall p, get u p = get u' p) -> with_version v t u -> with_version v t u'.
Proof. intros E W p. rewrite <- E. apply W. Qed.

Lemma target_head ts tag h : target ((tag, h) :: ts) tag = Some h.
Proof. cbn [target]. now rewrite str_eqb_refl. Qed.

Lemma same_head ok tag r : same (prepared upper ok tag r) (head_tree (log r)) = true ->
  exists c l, log r = c :: l /\ forall p, get (prepared upper ok tag r) p = get (s_tree c) p.
Proof.
  intros S. rewrite same_iff in S. destruct (log r) as [|c l].
  - specialize (S changelog_path). rewrite prepared_changelog in S. discriminate.
  - now exists c, l.
Qed.

Theorem all_succeeds ok v r : version_text v -> succeeds ok -> target (tags r) (tag_of v) = None ->
  exists c l, log (run ok (tag_of v) r) = c :: l /\ (l = log r \/ c :: l = log r) /\
    target (tags (run ok (tag_of v) r)) (tag_of v) = Some (s_hash c) /\
    with_version v (work r) (s_tree c) /\
    get (s_tree c) (lit "CHANGELOG.md") = Some (cliff upper r (Some (tag_of v))).
Proof.
  intros V O T. destruct (run_cases ok (tag_of v) r) as (L & W & G); [discriminate|].
  rewrite !O in L. rewrite !O, T in G. cbn [andb] in L, G.
  pose proof (prepared_version ok v r V (fun n => O (Sed n))) as P.
  pose proof (prepared_changelog ok (tag_of v) r) as Q. rewrite O in Q.
  destruct (same _ _) eqn:S; cbn [negb] in L, G.
  - destruct (same_head _ _ _ S) as (c & l & E & X). exists c, l. rewrite E in L, G. rewrite L, G, target_head, E.
    repeat split; auto.
    + apply (with_version_ext _ _ _ _ X P).
    + apply (with_version_ext _ _ _ _ X P).
    + apply (with_version_ext _ _ _ _ X P).
    + rewrite <- X. exact Q.
  - exists (made ok (tag_of v) r), (log r). rewrite L, G, target_head. repeat split; auto; apply P.
Qed.

(** Nothing but the commit fails: the tag is on the commit before. *)
Theorem commit_fails ok v r c l : only_fails ok Commit -> log r = c :: l ->
  target (tags r) (tag_of v) = None ->
  log (run ok (tag_of v) r) = log r /\ target (tags (run ok (tag_of v) r)) (tag_of v) = Some (s_hash c) /\
  (work r = s_tree c -> stale v (s_tree c) -> ~ with_version v (work r) (s_tree c)).
Proof.
  intros [F O] E T. destruct (run_cases ok (tag_of v) r) as (L & W & G); [discriminate|].
  rewrite F, andb_false_r in L, G. cbn [andb] in L, G. rewrite T, E, O in G by discriminate.
  split; [exact L|]. split; [rewrite G; apply target_head|].
  intros WK (p & x & m & C & X & I & M & N) A. destruct (A p) as (B & _). specialize (B C). rewrite WK, X in B.
  cbn [changed] in B. clear - I M N B.
  assert (H : forall a b, Forall2 (toml_change v) a b -> a = b -> In m a -> False).
  { induction 1 as [|y z a b Y _ IH]; intros Q J; [destruct J|]. injection Q as -> ->. destruct J as [->|J]; [|auto].
    destruct Y as [[_ Y]|[Y _]]; auto. }
  eapply H; eauto.
Qed.

(** Nothing but git-cliff fails: the changelog of the tagged commit is empty. *)
Theorem cliff_fails ok v r : only_fails ok (Cliff true) -> target (tags r) (tag_of v) = None ->
  exists c l, log (run ok (tag_of v) r) = c :: l /\ target (tags (run ok (tag_of v) r)) (tag_of v) = Some (s_hash c) /\
    get (s_tree c) (lit "CHANGELOG.md") = Some [].
Proof.
  intros [F O] T. destruct (run_cases ok (tag_of v) r) as (L & W & G); [discriminate|].
  rewrite !O in L by discriminate. rewrite !O, T in G by discriminate. cbn [andb] in L, G.
  pose proof (prepared_changelog ok (tag_of v) r) as Q. rewrite F in Q.
  destruct (same _ _) eqn:S; cbn [negb] in L, G.
  - destruct (same_head _ _ _ S) as (c & l & E & X). exists c, l. rewrite E in L, G. rewrite L, G, target_head.
    repeat split; auto. rewrite <- X. exact Q.
  - exists (made ok (tag_of v) r), (log r). rewrite L, G, target_head. repeat split; auto.
Qed.

(** A tag that is there stays. *)
Theorem tag_stays ok tag r h : target (tags r) tag = Some h -> tags (run ok tag r) = tags r.
Proof.
  intros T. destruct tag as [|t0 tag]; [reflexivity|]. destruct (run_cases ok (t0 :: tag) r) as (_ & _ & G); [discriminate|].
  rewrite G, T. destruct (ok TagIt); reflexivity.
Qed.

(** *** What is committed *)
Lemma made_is ok tag r c : tag <> [] -> log (run ok tag r) = c :: log r -> c = made ok tag r /\ work (run ok tag r) = s_tree c.
Proof.
  intros T E. destruct (run_cases ok tag r T) as (L & W & _). rewrite L in E.
  destruct (_ && _).
  - injection E as <-. split; [reflexivity|exact W].
  - exfalso. apply (f_equal (@length _)) in E. cbn in E. lia.
Qed.

Theorem clean_tree ok tag r c p : tag <> [] -> log (run ok tag r) = c :: log r ->
  (forall q, get (work r) q = get (head_tree (log r)) q) ->
  ~ released_file p -> get (s_tree c) p = get (head_tree (log r)) p.
Proof.
  intros T E H N. destruct (made_is _ _ _ _ T E) as [-> _]. cbn [made s_tree]. unfold released_file, changelog_file in N.
  rewrite prepared_other by (intros ->; apply N; right; now right). rewrite edit_tree_other by tauto. apply H.
Qed.

Theorem dirty_tree ok tag r p x : tag <> [] -> ok Add = true -> ok Commit = true ->
  ~ released_file p -> get (work r) p = Some x -> get (head_tree (log r)) p <> Some x ->
  exists c, log (run ok tag r) = c :: log r /\ get (s_tree c) p = Some x.
Proof.
  intros T A C N W H. destruct (run_cases ok tag r T) as (L & _ & _). rewrite A, C in L. cbn [andb] in L.
  assert (G : get (prepared upper ok tag r) p = Some x).
  { unfold released_file, changelog_file in N. rewrite prepared_other by (intros ->; apply N; right; now right).
    rewrite edit_tree_other by tauto. exact W. }
  destruct (same _ _) eqn:S.
  - rewrite same_iff in S. rewrite S in G. contradiction.
  - exists (made ok tag r). split; [exact L|exact G].
Qed.

(** *** The changelog afterwards *)
Theorem changelog_again ok tag r c t x : tag <> [] -> log (run ok tag r) = c :: log r -> fresh c ->
  get (s_tree c) (lit "CHANGELOG.md") = Some x ->
  stands_in (s_hash c) (cliff upper (run ok tag r) t) /\ ~ stands_in (s_hash c) x.
Proof.
  intros T E F X. split; [|exact (F _ _ X)]. destruct (made_is _ _ _ _ T E) as [-> _].
  destruct (read_prepare (s_hash (made ok tag r)) tag) as [n R].
  apply (commit_listed upper _ t (made ok tag r) n); [rewrite E; now left|exact R].
Qed.

Theorem run_again ok ok' tag r c : tag <> [] -> log (run ok tag r) = c :: log r ->
  ok' Add = true -> ok' Commit = true -> ok' (Cliff true) = true -> fresh c ->
  target (tags (run ok tag r)) tag = Some (s_hash c) ->
  exists c', log (run ok' tag (run ok tag r)) = c' :: c :: log r /\
    target (tags (run ok' tag (run ok tag r))) tag = Some (s_hash c).
Proof.
  intros T E A C O F G. rewrite (tag_stays _ _ _ _ G). 
  destruct (run_cases ok' tag (run ok tag r) T) as (L & _ & _). rewrite A, C in L. cbn [andb] in L.
  destruct (same _ _) eqn:S; cbn [negb] in L; [|exists (made ok' tag (run ok tag r)); rewrite L, E; auto].
  exfalso. rewrite same_iff in S. specialize (S changelog_path). rewrite prepared_changelog, O, E in S.
  cbn [head_tree] in S. symmetry in S. apply (F _ _ S).
  destruct (made_is _ _ _ _ T E) as [M _].
  destruct (read_prepare (s_hash c) tag) as [n R].
  apply (commit_listed upper _ (Some tag) c n); [rewrite E; now left|]. rewrite M in R |- *. exact R.
Qed.

End Script.

(** Every commit with a message as conventionalcommits.org has it is listed. *)
Theorem proper_listed upper r tag c n : In c (log r) -> SpecCliff.proper n ->
  s_hash c = SpecCliff.n_hash n -> s_message c = SpecCliff.wrote n ->
  stands_in (lit "- " ++ SpecCliff.bullet upper (SpecCliff.commit_url SpecCliff.wrong_base) n) (cliff upper r tag).
Proof.
  intros I P H M.
  assert (J : In (s_hash c, s_message c) (flat_map Cliff.history (releases r tag))).
  { rewrite releases_all. apply in_map_iff. now exists c. }
  apply in_flat_map in J as (x & X & J). rewrite H, M in J.
  destruct (CliffFacts.within_commit upper _ _ _ _ _ X J (CliffFacts.read_wrote n P)) as (a & b & W).
  exists a, b. unfold cliff. rewrite W, CliffFacts.entry_bullet. reflexivity.
Qed.

(** ** How the commits are divided *)
Lemma release_tag_iff v : release_tag v = true <-> exists a d b, v = a ++ 118%N :: d :: b /\ (48 <= d <= 57)%N.
Proof.
  split.
  - induction v as [|c v IH]; cbn [release_tag]; [discriminate|]. intros H. apply orb_prop in H as [H|H].
    + apply andb_prop in H as [C D]. apply ceq_iff in C. subst c. destruct v as [|d b]; [discriminate|].
      exists [], d, b. split; [reflexivity|]. unfold is_digit in D. apply andb_prop in D as [D1 D2].
      apply N.leb_le in D1, D2. lia.
    + destruct (IH H) as (a & d & b & -> & D). exists (c :: a), d, b. auto.
  - intros (a & d & b & -> & D). induction a as [|c a IH]; cbn [app release_tag].
    + apply orb_true_iff. left. apply andb_true_iff. split; [reflexivity|]. unfold is_digit.
      apply andb_true_iff. split; apply N.leb_le; lia.
    + apply orb_true_iff. now right.
Qed.

Lemma named_some ts h v : named ts h = Some v -> In (v, h) ts /\ release_tag v = true.
Proof.
  induction ts as [|[t k] ts IH]; cbn [named]; [discriminate|].
  destruct (str_eqb k h && release_tag t) eqn:E.
  - apply andb_prop in E as [E1 E2]. apply str_eqb_iff in E1. subst k. intros [= <-]. split; [now left|exact E2].
  - intros H. destruct (IH H). split; [now right|assumption].
Qed.

Lemma named_none ts h v : named ts h = None -> release_tag v = true -> ~ In (v, h) ts.
Proof.
  induction ts as [|[t k] ts IH]; cbn [named]; intros E R; [tauto|].
  destruct (str_eqb k h && release_tag t) eqn:F; [discriminate|].
  intros [X|X]; [|exact (IH E R X)]. injection X as -> ->. rewrite str_eqb_refl, R in F. discriminate.
Qed.

Definition apart (r : repo) : Prop := NoDup (map s_hash (log r)).
Definition name (r : repo) (t : option str) : str -> option str := names (tags r) t (log r).

Lemma head_only r c k x : apart r -> log r = x :: k -> In c (log r) -> s_hash x = s_hash c -> log r = c :: k.
Proof.
  unfold apart. intros U L I E. rewrite L in *. destruct I as [->|I]; [reflexivity|]. exfalso.
  cbn [map] in U. apply NoDup_cons_iff in U as [N _]. apply N. rewrite E. now apply in_map.
Qed.

Lemma untagged_named r c : named (tags r) (s_hash c) = None -> untagged r c.
Proof.
  intros E v [I R]. apply release_tag_iff in R. exact (named_none _ _ _ E R I).
Qed.

Lemma name_some r t c v : apart r -> In c (log r) -> name r t (s_hash c) = Some v ->
  points r v c \/ (untagged r c /\ t = Some v /\ exists k, log r = c :: k).
Proof.
  intros U I. unfold name, names. destruct (named (tags r) (s_hash c)) as [w|] eqn:E.
  - intros [= ->]. left. apply named_some in E as [E1 E2]. split; [exact E1|now apply release_tag_iff].
  - destruct t as [w|]; [|discriminate]. destruct (log r) as [|x k] eqn:L; [discriminate|].
    destruct (str_eqb (s_hash x) (s_hash c)) eqn:F; [|discriminate]. intros [= ->]. right.
    split; [now apply untagged_named|]. split; [reflexivity|]. apply str_eqb_iff in F. exists k.
    rewrite <- L. apply (head_only r c k x); [exact U|exact L|now rewrite L|exact F].
Qed.

Lemma name_none r t c : In c (log r) -> name r t (s_hash c) = None ->
  untagged r c /\ (t = None \/ ~ exists k, log r = c :: k).
Proof.
  intros I. unfold name, names. destruct (named (tags r) (s_hash c)) as [w|] eqn:E; [discriminate|].
  intros N. split; [now apply untagged_named|]. destruct t as [w|]; [right|now left].
  intros [k K]. rewrite K in N. rewrite str_eqb_refl in N. discriminate.
Qed.

Lemma chained_head rs : match chained rs with x :: _ => Cliff.version x | [] => None end
  = match rs with x :: _ => Cliff.version x | [] => None end.
Proof. destruct rs; reflexivity. Qed.

Lemma divided_chunks r t l : apart r -> (forall c, In c l -> In c (log r)) -> divided r t l (chained (chunks (name r t) l)).
Proof.
  intros U. induction l as [|c l IH]; intros S; [constructor|].
  assert (D : divided r t l (chained (chunks (name r t) l))) by (apply IH; intros x X; apply S; now right).
  pose proof (S c (or_introl eq_refl)) as I. cbn [chunks].
  assert (K : forall l0 l' h rs, l = l0 ++ l' -> Forall (untagged r) l0 ->
    h = noted (c :: l0) -> divided r t l' (chained rs) -> Forall (fun x => Cliff.version x <> None) (chained rs) ->
    divided r t (c :: l) (chained (Cliff.Release (name r t (s_hash c)) None (s_day c) h :: rs))).
  { intros l0 l' h rs -> F H D' G. cbn [chained Cliff.version Cliff.date Cliff.history].
    destruct (name r t (s_hash c)) as [v|] eqn:N.
    - apply divided_some; auto; [now apply name_some|symmetry; apply chained_head].
    - apply name_none in N as [N1 N2]; [|exact I]. apply divided_new; auto. symmetry. apply chained_head. }
  destruct (chunks (name r t) l) as [|[[v|] p d es] rs] eqn:C.
  - cbn [chained] in D. apply (K [] l _ []); [reflexivity|constructor|reflexivity|exact D|constructor].
  - apply (K [] l); [reflexivity|constructor|reflexivity|exact D|]. cbn [chained] in D |- *. inversion D; subst.
    constructor; [discriminate|assumption].
  - cbn [chained Cliff.version Cliff.date Cliff.history] in D. inversion D; subst.
    eapply (K (_ :: _)); [reflexivity| | |eassumption|assumption]; [constructor; assumption|reflexivity].
Qed.

Theorem releases_divided r t : apart r -> divided r t (log r) (releases r t).
Proof. intros U. apply divided_chunks; auto. Qed.

Lemma no_tag_nothing upper hash_of day ok r : release_sh upper hash_of day ok [] r = r.
Proof. reflexivity. Qed.

(** ** The lock file *)
Lemma forall2_in {A} (R : A -> A -> Prop) l l' x : Forall2 R l l' -> In x l -> exists y, In y l' /\ R x y.
Proof.
  induction 1 as [|a b l l' H _ IH]; intros I; [destruct I|]. destruct I as [->|I].
  - exists b. split; [now left|exact H].
  - destruct (IH I) as (y & Y & R'). exists y. split; [now right|exact R'].
Qed.

Theorem lock_stale upper hash_of day ok v r p y x n : version_text v -> succeeds ok ->
  target (tags r) (tag_of v) = None ->
  cargo_file p -> get (work r) p = Some y -> (exists l, In l (lines y) /\ managed l) ->
  get (work r) (lit "Cargo.lock") = Some x -> ~ lock_says x n v ->
  let r' := release_sh upper hash_of day ok (tag_of v) r in
  exists c y' x', In c (log r') /\ target (tags r') (tag_of v) = Some (s_hash c) /\
    get (s_tree c) p = Some y' /\ manifest_says y' v /\
    get (s_tree c) (lit "Cargo.lock") = Some x' /\ ~ lock_says x' n v.
Proof.
  intros V O T C Y (l & I & M) X N. cbv zeta.
  destruct (all_succeeds upper hash_of day ok v r V O T) as (c & k & L & _ & G & W & _).
  destruct (W p) as (W1 & _). specialize (W1 C). rewrite Y in W1.
  destruct (get (s_tree c) p) as [y'|] eqn:Y'; [|destruct W1]. cbn [changed] in W1.
  destruct (forall2_in _ _ _ _ W1 I) as (l' & I' & [[_ ->]|[M' _]]); [|contradiction].
  exists c, y', x. split; [rewrite L; now left|]. repeat split; auto.
  destruct (W (lit "Cargo.lock")) as (_ & _ & W3). rewrite W3; [exact X|].
  intros [F|[F|F]]; try discriminate F. apply cargo_iff in F as [F|F]; discriminate F.
Qed.

(** ** A small repository *)
Definition small_hash (l : list snapshot) (m : str) (t : tree) : str := [N.of_nat (1000 + length l)].
Definition small_day : str := lit "2025-01-05".
Definition all_ok (c : command) : bool := true.
Definition but (b : command -> bool) (c : command) : bool := negb (b c).
Definition is_commit (c : command) : bool := match c with Commit => true | _ => false end.
Definition is_cliff (c : command) : bool := match c with Cliff true => true | _ => false end.

Definition small_files : tree :=
  [ (lit "smd/Cargo.toml", lit "version = ""0.1.0"" # managed by release.sh" ++ [c_nl]);
    (lit "gfm/Cargo.toml", lit "version = ""0.1.0"" # managed by release.sh" ++ [c_nl]);
    (lit "npm/smd/package.json", lit "  ""version"": ""0.1.0""," ++ [c_nl]);
    (lit "src/main.rs", lit "fn main() {}") ].
Definition small : repo :=
  Repo [Snapshot (small_hash [] [] []) (lit "feat: start") small_day small_files] [] small_files.
Definition small_dirty : repo :=
  Repo (log small) [] (small_files ++ [(lit "notes.txt", lit "secret")]).

Definition after_small : repo := release_sh SpecCliff.ascii_upper small_hash small_day all_ok (lit "v0.2.0") small.
Definition small_commit : snapshot :=
  made SpecCliff.ascii_upper small_hash small_day all_ok (lit "v0.2.0") small.

Lemma small_ok : succeeds all_ok. Proof. now intros c. Qed.
Lemma small_commit_fails : only_fails (but is_commit) Commit.
Proof. split; [reflexivity|]. intros [| | | | | | |] D; try reflexivity. congruence. Qed.
Lemma small_cliff_fails : only_fails (but is_cliff) (Cliff true).
Proof. split; [reflexivity|]. intros [| |[]| | | | |] D; try reflexivity. congruence. Qed.

Lemma small_made : log after_small = small_commit :: log small /\ target (tags after_small) (lit "v0.2.0") = Some (s_hash small_commit).
Proof. vm_compute. split; reflexivity. Qed.

Lemma small_stale : stale (lit "0.2.0") small_files.
Proof.
  exists (lit "gfm/Cargo.toml"), (lit "version = ""0.1.0"" # managed by release.sh" ++ [c_nl]),
    (lit "version = ""0.1.0"" # managed by release.sh").
  split; [now left|]. split; [reflexivity|]. split; [now left|]. split; [|discriminate].
  now exists (lit """0.1.0"""), c_dot.
Qed.

Lemma get_listed t p x : get t p = Some x -> In x (map snd t).
Proof.
  induction t as [|[q y] t IH]; cbn [get]; [discriminate|]. intros E.
  destruct (str_eqb p q); [left; cbn; congruence|right; auto].
Qed.

Lemma small_fresh : fresh small_commit.
Proof.
  intros p x G (a & b & E). apply get_listed in G.
  assert (A : forallb (fun x => negb (mem_char 1001%N x)) (map snd (s_tree small_commit)) = true)
    by (vm_compute; reflexivity).
  rewrite forallb_forall in A. specialize (A x G). apply negb_true_iff in A.
  assert (B : In 1001%N x).
  { rewrite E. apply in_or_app. right. apply in_or_app. left. now left. }
  clear - A B. induction x as [|c x IH]; [destruct B|]. cbn [mem_char] in A. apply orb_false_iff in A as [A A'].
  destruct B as [->|B]; [discriminate|auto].
Qed.

Lemma not_released p : smd_path p = false -> p <> gfm_path -> p <> package_path -> p <> changelog_path -> ~ released_file p.
Proof.
  intros A B C D [E|[E|E]]; [|exact (C E)|exact (D E)].
  apply cargo_iff in E as [E|E]; congruence.
Qed.

(** Two releases and a commit behind them. *)
Definition three : repo :=
  Repo [Snapshot (lit "c") (lit "fix: c") (lit "3") []; Snapshot (lit "b") (lit "feat: b") (lit "2") [];
        Snapshot (lit "a") (lit "feat: a") (lit "1") []]
       [(lit "nightly", lit "c"); (lit "v2", lit "b"); (lit "v1", lit "a")] [].

Definition small_lock : str :=
  lit "[[package]]" ++ [c_nl] ++ lit "name = ""smd""" ++ [c_nl] ++ lit "version = ""0.1.0""" ++ [c_nl].
Definition locked : repo := Repo (log small) [] (small_files ++ [(lit "Cargo.lock", small_lock)]).

Lemma locked_old : ~ lock_says small_lock (lit "smd") (lit "0.2.0") /\ lock_says small_lock (lit "smd") (lit "0.1.0").
Proof.
  split.
  - intros (a & b & E). change (lines small_lock) with
      [lit "[[package]]"; lit "name = ""smd"""; lit "version = ""0.1.0"""; []] in E.
    destruct a as [|a1 [|a2 [|a3 [|a4 [|a5 a]]]]]; discriminate E.
  - now exists [lit "[[package]]"], [[]].
Qed.
