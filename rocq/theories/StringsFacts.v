(** * StringsFacts: lemmas about Strings.v. *)
From Verif Require Import Strings.

Lemma ceq_eq a b : ceq a b = true <-> a = b.
Proof. apply N.eqb_eq. Qed.
Lemma ceq_neq a b : ceq a b = false <-> a <> b.
Proof. apply N.eqb_neq. Qed.
Lemma ceq_refl a : ceq a a = true.
Proof. apply N.eqb_refl. Qed.
Lemma ceq_sym a b : ceq a b = ceq b a.
Proof. apply N.eqb_sym. Qed.

Lemma str_eqb_eq a b : str_eqb a b = true <-> a = b.
Proof.
  revert b; induction a as [|x a IH]; intros [|y b]; cbn; try easy.
  rewrite andb_true_iff, ceq_eq, IH. split; [intros [-> ->]; auto | now injection 1].
Qed.
Lemma str_eqb_refl a : str_eqb a a = true.
Proof. now apply str_eqb_eq. Qed.

Lemma starts_with_iff p s : starts_with p s = true <-> exists y, s = p ++ y.
Proof.
  revert s; induction p as [|x p IH]; intros s; cbn.
  - split; eauto.
  - destruct s as [|c s]; [split; [easy | intros [y H]; discriminate]|].
    rewrite andb_true_iff, ceq_eq, IH. split.
    + intros [-> [y ->]]; now exists y.
    + intros [y H]; injection H as -> ->; eauto.
Qed.
Lemma starts_with_app p s : starts_with p (p ++ s) = true.
Proof. apply starts_with_iff; eauto. Qed.
Lemma ends_with_iff p s : ends_with p s = true <-> exists x, s = x ++ p.
Proof.
  unfold ends_with. rewrite starts_with_iff. split; intros [y H].
  - exists (rev y). rewrite <- (rev_involutive s), H, rev_app_distr, rev_involutive. auto.
  - exists (rev y). now rewrite H, rev_app_distr.
Qed.
Lemma ends_with_app p s : ends_with p (s ++ p) = true.
Proof. apply ends_with_iff; eauto. Qed.

Lemma strip_prefix_iff p s r : strip_prefix p s = Some r <-> s = p ++ r.
Proof.
  revert s; induction p as [|x p IH]; intros s; cbn.
  - split; [now injection 1 | now intros ->].
  - destruct s as [|c s]; [easy|].
    destruct (ceq x c) eqn:E.
    + apply ceq_eq in E as ->. rewrite IH. split; [now intros -> | now injection 1].
    + split; [easy|]. intros H; injection H as -> _. now rewrite ceq_refl in E.
Qed.
Lemma strip_prefix_app p r : strip_prefix p (p ++ r) = Some r.
Proof. now apply strip_prefix_iff. Qed.
Lemma strip_suffix_iff p s r : strip_suffix p s = Some r <-> s = r ++ p.
Proof.
  unfold strip_suffix. destruct (strip_prefix (rev p) (rev s)) as [q|] eqn:E.
  - apply strip_prefix_iff in E.
    assert (s = rev q ++ p) as ->.
    { rewrite <- (rev_involutive s), E, rev_app_distr, rev_involutive. auto. }
    split; [now injection 1 as <- |]. intros H. apply app_inv_tail in H. now subst.
  - split; [easy|]. intros ->. rewrite rev_app_distr in E.
    now rewrite strip_prefix_app in E.
Qed.
Lemma strip_suffix_app p r : strip_suffix p (r ++ p) = Some r.
Proof. now apply strip_suffix_iff. Qed.

(** ** Infix and suffix *)
Definition suffix (r' r : str) : Prop := exists x, r = x ++ r'.
Definition ssuffix (r' r : str) : Prop := exists c x, r = c :: x ++ r'.

Lemma infix_refl s : infix s s.
Proof. exists [], []. now rewrite app_nil_r. Qed.
Lemma infix_trans a b c : infix a b -> infix b c -> infix a c.
Proof.
  intros (x & y & ->) (x' & y' & ->). exists (x' ++ x), (y ++ y').
  now rewrite !app_assoc.
Qed.
Lemma infix_nil s : infix [] s.
Proof. exists [], s. reflexivity. Qed.
Lemma infix_cons c a s : infix a s -> infix a (c :: s).
Proof. intros (x & y & ->). now exists (c :: x), y. Qed.
Lemma infix_app_l a b s : infix (a ++ b) s -> infix a s.
Proof. intros (x & y & ->). exists x, (b ++ y). now rewrite !app_assoc. Qed.
Lemma infix_app_r a b s : infix (a ++ b) s -> infix b s.
Proof. intros (x & y & ->). exists (x ++ a), y. now rewrite !app_assoc. Qed.
Lemma infix_cons_l c b s : infix (c :: b) s -> infix b s.
Proof. apply (infix_app_r [c]). Qed.
Lemma infix_length a s : infix a s -> length a <= length s.
Proof. intros (x & y & ->). rewrite !app_length. lia. Qed.
Lemma infix_In a s c : infix a s -> In c a -> In c s.
Proof. intros (x & y & ->) H. rewrite !in_app_iff. auto. Qed.

Lemma suffix_refl s : suffix s s.
Proof. now exists []. Qed.
Lemma suffix_nil s : suffix [] s.
Proof. exists s. now rewrite app_nil_r. Qed.
Lemma suffix_trans a b c : suffix a b -> suffix b c -> suffix a c.
Proof. intros [x ->] [y ->]. exists (y ++ x). now rewrite app_assoc. Qed.
Lemma suffix_cons c s : suffix s (c :: s).
Proof. now exists [c]. Qed.
Lemma suffix_tl s : suffix (tl s) s.
Proof. destruct s; [apply suffix_refl | apply suffix_cons]. Qed.
Lemma suffix_length a s : suffix a s -> length a <= length s.
Proof. intros [x ->]. rewrite app_length. lia. Qed.
Lemma suffix_infix a s : suffix a s -> infix a s.
Proof. intros [x ->]. exists x, []. now rewrite app_nil_r. Qed.
Lemma ssuffix_suffix a s : ssuffix a s -> suffix a s.
Proof. intros (c & x & ->). now exists (c :: x). Qed.
Lemma ssuffix_trans_l a b c : ssuffix a b -> suffix b c -> ssuffix a c.
Proof.
  intros (d & x & ->) [y ->]. destruct y as [|e y].
  - exists d, x. reflexivity.
  - exists e, (y ++ d :: x). cbn. now rewrite <- app_assoc.
Qed.
Lemma ssuffix_trans_r a b c : suffix a b -> ssuffix b c -> ssuffix a c.
Proof.
  intros [y ->] (d & x & ->). exists d, (x ++ y). now rewrite app_assoc.
Qed.
Lemma ssuffix_cons c s : ssuffix s (c :: s).
Proof. now exists c, []. Qed.
Lemma ssuffix_length a s : ssuffix a s -> length a < length s.
Proof. intros (c & x & ->). cbn. rewrite app_length. lia. Qed.
Lemma suffix_ssuffix a s : suffix a s -> length a < length s -> ssuffix a s.
Proof.
  intros [[|c x] ->]; cbn; intros; [lia|]. now exists c, x.
Qed.

(** ** Searching *)
Lemma contains_iff p s : contains p s = true <-> infix p s.
Proof.
  induction s as [|c s IH].
  - cbn. rewrite orb_false_r, starts_with_iff. split.
    + intros [y H]. symmetry in H. apply app_eq_nil in H as [-> ->]. apply infix_refl.
    + intros (x & y & H). symmetry in H.
      apply app_eq_nil in H as [-> H]. apply app_eq_nil in H as [-> ->]. now exists [].
  - cbn [contains]. rewrite orb_true_iff, starts_with_iff, IH. split.
    + intros [[y ->]|H]; [now exists [], y | now apply infix_cons].
    + intros (x & y & H). destruct x as [|d x]; [left; eauto|].
      injection H as -> ->. right. now exists x, y.
Qed.
Lemma contains_char_iff c s : contains_char c s = true <-> In c s.
Proof.
  unfold contains_char. rewrite existsb_exists. split.
  - intros (x & H & E). apply ceq_eq in E. now subst.
  - intros H. exists c. now rewrite ceq_refl.
Qed.
Lemma contains_char_false c s : contains_char c s = false <-> ~ In c s.
Proof. rewrite <- contains_char_iff. now destruct (contains_char c s). Qed.
Lemma mem_char_iff c s : mem_char c s = true <-> In c s.
Proof. apply contains_char_iff. Qed.

(** ** take_while / drop_while / trimming *)
Lemma take_drop f s : take_while f s ++ drop_while f s = s.
Proof. induction s as [|c s IH]; cbn; [auto|]. destruct (f c); cbn; congruence. Qed.
Lemma take_while_forall f s : forallb f (take_while f s) = true.
Proof. induction s as [|c s IH]; cbn; [auto|]. destruct (f c) eqn:E; cbn; [now rewrite E|auto]. Qed.
Lemma drop_while_head f s c s' : drop_while f s = c :: s' -> f c = false.
Proof.
  induction s as [|d s IH]; cbn; [easy|]. destruct (f d) eqn:E; [auto|].
  injection 1 as -> ->. auto.
Qed.
Lemma take_while_all f s : forallb f s = true -> take_while f s = s.
Proof.
  induction s as [|c s IH]; cbn; [auto|]. rewrite andb_true_iff. intros [-> H].
  now rewrite IH.
Qed.
Lemma drop_while_all f s : forallb f s = true -> drop_while f s = [].
Proof.
  induction s as [|c s IH]; cbn; [auto|]. rewrite andb_true_iff. intros [-> H]. auto.
Qed.
Lemma take_while_app f a b : forallb f a = true -> take_while f (a ++ b) = a ++ take_while f b.
Proof.
  induction a as [|c a IH]; cbn; [auto|]. rewrite andb_true_iff. intros [-> H].
  now rewrite IH.
Qed.
Lemma drop_while_app f a b : forallb f a = true -> drop_while f (a ++ b) = drop_while f b.
Proof.
  induction a as [|c a IH]; cbn; [auto|]. rewrite andb_true_iff. intros [-> H]. auto.
Qed.
Lemma take_while_stop f c s : f c = false -> take_while f (c :: s) = [].
Proof. cbn. now intros ->. Qed.
Lemma drop_while_stop f c s : f c = false -> drop_while f (c :: s) = c :: s.
Proof. cbn. now intros ->. Qed.
Lemma suffix_drop_while f s : suffix (drop_while f s) s.
Proof. exists (take_while f s). now rewrite take_drop. Qed.
Lemma infix_take_while f s : infix (take_while f s) s.
Proof. exists [], (drop_while f s). cbn. now rewrite take_drop. Qed.
Lemma infix_drop_while f s : infix (drop_while f s) s.
Proof. apply suffix_infix, suffix_drop_while. Qed.

Lemma infix_rev a s : infix a (rev s) -> infix (rev a) s.
Proof.
  intros (x & y & H). exists (rev y), (rev x).
  rewrite <- (rev_involutive s), H, !rev_app_distr, app_assoc. reflexivity.
Qed.
Lemma trim_end_by_spec f s :
  exists y, s = trim_end_by f s ++ y /\ forallb f y = true.
Proof.
  unfold trim_end_by. exists (rev (take_while f (rev s))). split.
  - rewrite <- rev_app_distr, take_drop. now rewrite rev_involutive.
  - apply forallb_forall. intros c H. apply in_rev in H.
    pose proof (take_while_forall f (rev s)) as A. rewrite forallb_forall in A. auto.
Qed.
Lemma infix_trim_end_by f s : infix (trim_end_by f s) s.
Proof. destruct (trim_end_by_spec f s) as (y & H & _). exists [], y. auto. Qed.
Lemma infix_trim_start_by f s : infix (trim_start_by f s) s.
Proof. apply infix_drop_while. Qed.
Lemma infix_trim_end s : infix (trim_end s) s.
Proof. apply infix_trim_end_by. Qed.
Lemma infix_trim s : infix (trim s) s.
Proof.
  unfold trim. eapply infix_trans; [apply infix_trim_end | apply infix_trim_start_by].
Qed.

Lemma infix_firstn n s : infix (firstn n s) s.
Proof. exists [], (skipn n s). cbn. now rewrite firstn_skipn. Qed.
Lemma infix_skipn n s : infix (skipn n s) s.
Proof. exists (firstn n s), []. now rewrite app_nil_r, firstn_skipn. Qed.
Lemma suffix_skipn n s : suffix (skipn n s) s.
Proof. exists (firstn n s). now rewrite firstn_skipn. Qed.

Lemma infix_strip_prefix p s r : strip_prefix p s = Some r -> infix r s.
Proof. intros H. apply strip_prefix_iff in H as ->. exists p, []. now rewrite app_nil_r. Qed.
Lemma infix_strip_suffix p s r : strip_suffix p s = Some r -> infix r s.
Proof. intros H. apply strip_suffix_iff in H as ->. now exists [], p. Qed.
Lemma infix_or_empty_prefix p s : infix (or_empty (strip_prefix p s)) s.
Proof.
  destruct (strip_prefix p s) eqn:E; cbn; [now apply infix_strip_prefix in E | apply infix_nil].
Qed.
Lemma infix_or_empty_suffix p s : infix (or_empty (strip_suffix p s)) s.
Proof.
  destruct (strip_suffix p s) eqn:E; cbn; [now apply infix_strip_suffix in E | apply infix_nil].
Qed.

Lemma drop_prefixes_suffix n p s : suffix (drop_prefixes n p s) s.
Proof.
  revert s; induction n as [|n IH]; intros s; cbn; [apply suffix_refl|].
  destruct (strip_prefix p s) as [s'|] eqn:E; [|apply suffix_refl].
  apply strip_prefix_iff in E as ->. eapply suffix_trans; [apply IH|]. now exists p.
Qed.
Lemma infix_trim_end_matches p s : infix (trim_end_matches p s) s.
Proof. unfold trim_end_matches. apply infix_rev, suffix_infix, drop_prefixes_suffix. Qed.

(** ** split_once and friends *)
Lemma split_once_app c a b : ~ In c a -> split_once c (a ++ c :: b) = Some (a, b).
Proof.
  induction a as [|x a IH]; cbn; intros N; [now rewrite ceq_refl|].
  destruct (ceq x c) eqn:E; [apply ceq_eq in E as ->; destruct N; now left|].
  rewrite IH; [auto|]. intros H; apply N; now right.
Qed.
Lemma split_once_sound c s a b :
  split_once c s = Some (a, b) -> s = a ++ c :: b /\ ~ In c a.
Proof.
  revert a b; induction s as [|x s IH]; intros a b; cbn; [easy|].
  destruct (ceq x c) eqn:E.
  - apply ceq_eq in E as ->. injection 1 as <- <-. auto.
  - apply ceq_neq in E. destruct (split_once c s) as [[a' b']|]; [|easy].
    injection 1 as <- <-. destruct (IH _ _ eq_refl) as [-> N].
    split; [auto|]. intros [->|H]; auto.
Qed.
Lemma split_once_some c s a b :
  split_once c s = Some (a, b) <-> s = a ++ c :: b /\ ~ In c a.
Proof.
  split; [apply split_once_sound|]. intros [-> N]. now apply split_once_app.
Qed.
Lemma split_once_none c s : split_once c s = None <-> ~ In c s.
Proof.
  destruct (split_once c s) as [[a b]|] eqn:E.
  - apply split_once_some in E as [-> _]. split; [easy|]. intros H; destruct H.
    apply in_app_iff. right; now left.
  - split; [|auto]. intros _ H. apply in_split in H as (a & b & ->).
    revert E. clear. induction a as [|x a IH]; cbn; [now rewrite ceq_refl|].
    destruct (ceq x c); [easy|]. destruct (split_once c (a ++ c :: b)) as [[]|]; auto.
    discriminate.
Qed.
Lemma rsplit_once_some c s a b :
  rsplit_once c s = Some (a, b) <-> s = a ++ c :: b /\ ~ In c b.
Proof.
  unfold rsplit_once. destruct (split_once c (rev s)) as [[x y]|] eqn:E.
  - apply split_once_some in E as [E N].
    assert (s = rev y ++ c :: rev x) as ->.
    { rewrite <- (rev_involutive s), E, rev_app_distr. cbn. now rewrite <- app_assoc. }
    split.
    + injection 1 as <- <-. split; [auto|]. now rewrite <- in_rev.
    + intros [H N']. f_equal.
      assert (split_once c (rev (a ++ c :: b)) = Some (rev b, rev a)) as Q.
      { apply split_once_some. rewrite rev_app_distr. cbn. rewrite <- app_assoc.
        split; [auto|]. now rewrite <- in_rev. }
      rewrite <- H, E in Q.
      assert (split_once c (x ++ c :: y) = Some (x, y)) as Q' by now apply split_once_some.
      rewrite Q in Q'. injection Q' as <- <-. now rewrite !rev_involutive.
  - apply split_once_none in E. split; [easy|]. intros [-> _]. destruct E.
    rewrite <- in_rev, in_app_iff. right; now left.
Qed.
Lemma rsplit_once_none c s : rsplit_once c s = None <-> ~ In c s.
Proof.
  unfold rsplit_once. rewrite in_rev, <- split_once_none.
  destruct (split_once c (rev s)) as [[]|]; split; congruence.
Qed.

Lemma split_go_infix p skip s u acc x :
  In x (split_go p skip acc s) -> (skip = 0 \/ acc = []) ->
  infix (rev acc ++ s) u -> infix x u.
Proof.
  revert skip acc; induction s as [|c s IH]; intros skip acc; cbn [split_go].
  - intros [<-|[]] _. rewrite app_nil_r. auto.
  - destruct skip as [|k].
    + destruct (starts_with p (c :: s)).
      * intros [<-|H] _ I; [now apply infix_app_l in I|].
        apply (IH _ _ H); [now right|]. cbn. apply infix_app_r in I. now apply infix_cons_l in I.
      * intros H _ I. apply (IH _ _ H); [now left|]. cbn. now rewrite <- app_assoc.
    + intros H [E| ->] I; [discriminate|].
      apply (IH _ _ H); [now right|]. cbn in *. now apply infix_cons_l in I.
Qed.
Lemma split_infix p s x : In x (split p s) -> infix x s.
Proof. intros H. apply (split_go_infix _ _ _ _ _ _ H); [now left|]. apply infix_refl. Qed.
Lemma split_go_nonempty p skip acc s : split_go p skip acc s <> [].
Proof.
  revert skip acc; induction s as [|c s IH]; intros skip acc; cbn [split_go]; [easy|].
  destruct skip; [|apply IH]. destruct (starts_with _ _); [easy | apply IH].
Qed.
