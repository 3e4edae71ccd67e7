(** * DetailsBody: the texts of details blocks do not make the lexer hang. *)
From Coq Require Import Ascii String.
From Verif Require Import Strings StringsFacts Token Iter Lexer Parser LexerFacts DetailsFacts
  SpecRobust.
Open Scope list_scope.

(** ** Counting *)
Lemma count_go_occurs c p s k : ~ In c p ->
  ~ In c (firstn k s) -> count_go (c :: p) k s = occurs (c :: p) s.
Proof.
  intros N. revert k; induction s as [|x s IH]; intros k H; [reflexivity|].
  cbn [count_go occurs]. destruct k as [|k].
  - destruct (starts_with (c :: p) (x :: s)) eqn:E.
    + cbn [plus]. f_equal. apply IH. apply starts_with_iff in E as [z E].
      cbn [app] in E. injection E as _ ->. cbn [length]. rewrite Nat.sub_succ, Nat.sub_0_r.
      rewrite firstn_app, Nat.sub_diag, firstn_all. cbn. now rewrite app_nil_r.
    + cbn [plus]. apply IH. intros [].
  - cbn [firstn] in H. assert (E : starts_with (c :: p) (x :: s) = false).
    { cbn [starts_with]. destruct (ceq c x) eqn:E; [|reflexivity]. exfalso. apply H.
      apply ceq_eq in E. now left. }
    rewrite E. cbn [plus]. apply IH. intros I. apply H. now right.
Qed.
Lemma opens_occurs s : opens s = occurs o_tag s.
Proof. apply (count_go_occurs c_lt (lit "details>")); [vm_compute; intuition discriminate | intros []]. Qed.
Lemma closes_occurs s : closes s = occurs c_tag s.
Proof. apply (count_go_occurs c_lt (lit "/details>")); [vm_compute; intuition discriminate | intros []]. Qed.

Lemma occurs_0 w s : w <> [] -> occurs w s = 0 <-> ~ infix w s.
Proof.
  intros W. induction s as [|c s IH]; cbn [occurs].
  - split; [|auto]. intros _ (x & y & E). destruct x, w; easy.
  - destruct (starts_with w (c :: s)) eqn:E.
    + split; [discriminate|]. intros N. exfalso. apply N. apply starts_with_iff in E as [z ->].
      now exists [], z.
    + cbn [plus]. rewrite IH. split; intros N (x & y & Q).
      * destruct x as [|d x].
        -- cbn [app] in Q. rewrite Q, starts_with_app in E. discriminate.
        -- cbn [app] in Q. injection Q as -> ->. apply N. now exists x, y.
      * apply N. exists (c :: x), y. now rewrite Q.
Qed.

(** A split behind the last character of the word cuts no occurrence ... *)
Lemma occurs_end q g a b : ~ In g q ->
  occurs (q ++ [g]) ((a ++ [g]) ++ b) = occurs (q ++ [g]) (a ++ [g]) + occurs (q ++ [g]) b.
Proof.
  intros N. induction a as [|c a IH].
  - cbn [app occurs]. replace (starts_with (q ++ [g]) (g :: b)) with (starts_with (q ++ [g]) [g]).
    { now rewrite Nat.add_0_r. }
    destruct q as [|d q].
    + cbn [app starts_with]. now rewrite ceq_refl.
    + cbn [app starts_with]. destruct (ceq d g) eqn:E; [|reflexivity].
      apply ceq_eq in E as ->. exfalso. apply N. now left.
  - cbn [app occurs]. rewrite IH.
    replace (starts_with (q ++ [g]) (c :: (a ++ [g]) ++ b))
      with (starts_with (q ++ [g]) (c :: a ++ [g])); [lia|].
    change (c :: (a ++ [g]) ++ b) with (((c :: a) ++ [g]) ++ b).
    change (c :: a ++ [g]) with ((c :: a) ++ [g]). generalize (c :: a) as l. clear IH a c.
    induction q as [|d q IHq]; intros l.
    + destruct l as [|x l]; cbn [app starts_with]; destruct (ceq g _); reflexivity.
    + destruct l as [|x l]; cbn [app starts_with].
      * destruct (ceq d g) eqn:E; [|reflexivity].
        apply ceq_eq in E as ->. exfalso. apply N. now left.
      * rewrite IHq; [reflexivity|]. intros I. apply N. now right.
Qed.
(** ... nor does one before its first character. *)
Lemma starts_with_before c p a b : ~ In c p -> starts_with p (a ++ c :: b) = starts_with p a.
Proof.
  revert a; induction p as [|d p IH]; intros a N; [now destruct a|].
  destruct a as [|y a]; cbn [app starts_with].
  - destruct (ceq d c) eqn:E; [|reflexivity]. apply ceq_eq in E as ->. exfalso. apply N. now left.
  - f_equal. apply IH. intros I; apply N; now right.
Qed.
Lemma occurs_start c p a b : ~ In c p ->
  occurs (c :: p) (a ++ c :: b) = occurs (c :: p) a + occurs (c :: p) (c :: b).
Proof.
  intros N. induction a as [|x a IH]; [reflexivity|].
  cbn [app occurs]. rewrite IH. change (occurs (c :: p) (c :: b)) with
    ((if starts_with (c :: p) (c :: b) then 1 else 0) + occurs (c :: p) b).
  replace (starts_with (c :: p) (x :: a ++ c :: b)) with (starts_with (c :: p) (x :: a)); [lia|].
  cbn [starts_with]. now rewrite starts_with_before.
Qed.

Local Notation O := (occurs o_tag).
Local Notation C := (occurs c_tag).

Definition gt_end (t : str) : Prop := t = [] \/ exists t0, t = t0 ++ [c_gt].
Lemma O_app a b : gt_end a -> O (a ++ b) = O a + O b.
Proof.
  intros [->|[t ->]]; [reflexivity|].
  apply (occurs_end (lit "<details") c_gt). vm_compute. intuition discriminate.
Qed.
Lemma C_app a b : gt_end a -> C (a ++ b) = C a + C b.
Proof.
  intros [->|[t ->]]; [reflexivity|].
  apply (occurs_end (lit "</details") c_gt). vm_compute. intuition discriminate.
Qed.
Lemma O_lt a b : O (a ++ c_lt :: b) = O a + O (c_lt :: b).
Proof. apply (occurs_start c_lt (lit "details>")). vm_compute. intuition discriminate. Qed.
Lemma C_lt a b : C (a ++ c_lt :: b) = C a + C (c_lt :: b).
Proof. apply (occurs_start c_lt (lit "/details>")). vm_compute. intuition discriminate. Qed.
Lemma O_close b : O (c_tag ++ b) = O b.
Proof. rewrite O_app; [reflexivity|]. right. now exists (lit "</details"). Qed.
Lemma C_close b : C (c_tag ++ b) = S (C b).
Proof. rewrite C_app; [reflexivity|]. right. now exists (lit "</details"). Qed.
Lemma O_open b : O (o_tag ++ b) = S (O b).
Proof. rewrite O_app; [reflexivity|]. right. now exists (lit "<details"). Qed.
Lemma C_open b : C (o_tag ++ b) = C b.
Proof. rewrite C_app; [reflexivity|]. right. now exists (lit "<details"). Qed.

(** ** Up to the next closing tag *)
Lemma consume_prefix tail acc r a r' :
  consume_until_tail_go tail acc r = (a, r') ->
  exists u, a = acc ++ u /\ r = u ++ r' /\
    (forall p q, u = p ++ q -> q <> [] -> ends_with tail (acc ++ p) = false) /\
    (r' = [] \/ ends_with tail a = true).
Proof.
  revert acc a r'; induction r as [|c r IH]; intros acc a r' E; cbn in E.
  - injection E as <- <-. exists []. rewrite app_nil_r. repeat split; auto.
    intros p q P Q. symmetry in P. apply app_eq_nil in P as [_ ->]. easy.
  - destruct (ends_with tail acc) eqn:W.
    + injection E as <- <-. exists []. rewrite app_nil_r. repeat split; auto.
      intros p q P Q. symmetry in P. apply app_eq_nil in P as [_ ->]. easy.
    + apply IH in E as (u & -> & -> & N & T). exists (c :: u). rewrite <- app_assoc.
      repeat split; auto.
      * intros p q P Q. destruct p as [|d p]; [now rewrite app_nil_r|].
        cbn [app] in P. injection P as <- ->. specialize (N p q eq_refl Q).
        now rewrite <- app_assoc in N.
      * now rewrite <- app_assoc in T.
Qed.
Lemma consume_close r u r1 : consume_until_tail_is c_tag r = (u, r1) ->
  r = u ++ r1 /\ (r <> [] -> u <> []) /\
  ((exists u0, u = u0 ++ c_tag /\ C u0 = 0) \/ (r1 = [] /\ C u = 0)).
Proof.
  intros E. apply consume_prefix in E as (v & -> & E & N & T). cbn [app] in *.
  split; [exact E|]. split.
  { intros R ->. cbn in E. destruct T as [->|T]; [now destruct r|]. discriminate T. }
  destruct (ends_with c_tag v) eqn:W.
  - left. apply ends_with_iff in W as [u0 ->]. exists u0. split; [auto|].
    apply occurs_0; [easy|]. intros (x & y & ->).
    specialize (N (x ++ c_tag) (y ++ c_tag)). rewrite ends_with_app in N.
    discriminate N; [now rewrite <- !app_assoc | now destruct y].
  - right. destruct T as [->|T]; [|discriminate T]. split; [auto|].
    apply occurs_0; [easy|]. intros (x & y & ->). destruct y as [|d y].
    + rewrite app_nil_r, ends_with_app in W. discriminate.
    + specialize (N (x ++ c_tag) (d :: y)). rewrite ends_with_app in N.
      discriminate N; [now rewrite <- !app_assoc | easy].
Qed.

(** ** The loop *)
Definition fine (s : str) : Prop := forall a b, s = a ++ o_tag ++ b -> O b = 0 \/ O b <> C b.
Definition body_of (t : str) : str := or_empty (strip_suffix c_tag t).
Definition good (t : str) : Prop :=
  gt_end t /\ O t = C t /\ forall a b, t = a ++ o_tag ++ b -> C b = S (O b).

Lemma app_split {A} (a b c d : list A) : a ++ b = c ++ d ->
  (exists m, c = a ++ m /\ b = m ++ d) \/ (exists m, a = c ++ m /\ d = m ++ b).
Proof.
  revert c; induction a as [|x a IH]; intros c E.
  - left. now exists c.
  - destruct c as [|y c].
    + right. exists (x :: a). auto.
    + cbn in E. injection E as <- E. destruct (IH _ E) as [(m & -> & ->)|(m & -> & ->)].
      * left. now exists m.
      * right. now exists m.
Qed.
Lemma last_once {A} (g : A) q w m : ~ In g q -> q ++ [g] = (w ++ [g]) ++ m -> m = [].
Proof.
  revert w; induction q as [|c q IH]; intros w N E; destruct w as [|d w]; cbn [app] in E.
  - now injection E as <-.
  - injection E as _ E. now destruct w.
  - injection E as -> _. exfalso. apply N. now left.
  - injection E as <- E. apply (IH w); [|exact E]. intros I. apply N. now right.
Qed.
Lemma gt_end_suffix a b : gt_end (a ++ b) -> gt_end b.
Proof.
  intros H. destruct b as [|c b] using rev_ind; [now left|]. clear IHb. right.
  rewrite app_assoc in H. destruct H as [H|[t H]].
  - now destruct (a ++ b).
  - apply app_inj_tail in H as [_ ->]. now exists b.
Qed.
Lemma open_split t u a b : gt_end t -> t ++ u = a ++ o_tag ++ b ->
  (exists b0, t = a ++ o_tag ++ b0 /\ b = b0 ++ u) \/ (exists a0, u = a0 ++ o_tag ++ b).
Proof.
  intros G E. rewrite app_assoc in E. apply app_split in E as [(m & M & ->)|(m & -> & ->)].
  2:{ left. exists m. now rewrite <- app_assoc. }
  apply app_split in M as [(n & -> & N)|(n & -> & ->)].
  2:{ right. exists n. now rewrite <- app_assoc. }
  apply gt_end_suffix in G as [->|[w ->]].
  - cbn [app] in N. subst m. right. now exists [].
  - assert (m = []) as ->.
    { apply (last_once c_gt (lit "<details") w m); [vm_compute; intuition discriminate | exact N]. }
    rewrite app_nil_r in N. left. exists []. rewrite <- N. now rewrite app_nil_r.
Qed.

Lemma gt_end_close x : gt_end (x ++ c_tag).
Proof. right. exists (x ++ lit "</details"). now rewrite <- app_assoc. Qed.
Lemma body_of_close x : body_of (x ++ c_tag) = x.
Proof. unfold body_of. now rewrite strip_suffix_app. Qed.
Lemma fine_0 s : C s = 0 -> fine s.
Proof.
  intros H a b E. destruct (O b) eqn:Q; [now left|]. right. intros R.
  rewrite E in H. change (a ++ o_tag ++ b) with (a ++ c_lt :: lit "details>" ++ b) in H.
  rewrite C_lt in H. change (c_lt :: lit "details>" ++ b) with (o_tag ++ b) in H.
  rewrite C_open in H. lia.
Qed.

Lemma good_step t r u r1 : good t -> consume_until_tail_is c_tag r = (u, r1) ->
  (O (t ++ u) = C (t ++ u) -> good (t ++ u) \/ r1 = []) /\
  (O (t ++ u) <> C (t ++ u) -> fine (body_of (t ++ u))).
Proof.
  intros (G & E & H) Q. apply consume_close in Q as (_ & _ & [(u0 & -> & Z)|[-> Z]]).
  - assert (OU : O (u0 ++ c_tag) = O u0).
    { change (u0 ++ c_tag) with (u0 ++ c_lt :: lit "/details>"). rewrite O_lt.
      change (O (c_lt :: lit "/details>")) with 0. lia. }
    assert (CU : C (u0 ++ c_tag) = 1).
    { change (u0 ++ c_tag) with (u0 ++ c_lt :: lit "/details>"). rewrite C_lt, Z. reflexivity. }
    rewrite O_app, C_app, OU, CU by auto. split.
    + intros J. left. split; [rewrite app_assoc; apply gt_end_close|]. split.
      { rewrite O_app, C_app, OU, CU by auto. lia. }
      intros a b S. apply open_split in S as [(b0 & B & ->)|(a0 & B)]; [| |auto].
      * assert (gt_end b0) as GB.
        { apply (gt_end_suffix (a ++ o_tag)). rewrite <- app_assoc, <- B. exact G. }
        rewrite O_app, C_app, OU, CU, (H _ _ B) by auto. lia.
      * rewrite B in OU, CU. change (a0 ++ o_tag ++ b) with (a0 ++ c_lt :: lit "details>" ++ b) in OU, CU.
        rewrite O_lt in OU. rewrite C_lt in CU.
        change (c_lt :: lit "details>" ++ b) with (o_tag ++ b) in OU, CU.
        rewrite O_open in OU. rewrite C_open in CU.
        assert (C a0 = 0).
        { apply occurs_0; [easy|]. intros (x & y & ->).
          assert (J0 : ~ infix c_tag u0) by now apply occurs_0.
          revert B. replace ((x ++ c_tag ++ y) ++ o_tag ++ b)
            with ((x ++ c_tag) ++ (y ++ o_tag ++ b)) by now rewrite <- !app_assoc.
          intros B. apply app_split in B as [(m & B & B2)|(m & B & B2)].
          - assert (gt_end m) as GM.
            { apply (gt_end_suffix u0). rewrite <- B. apply gt_end_close. }
            destruct GM as [->|[w ->]].
            + rewrite app_nil_r in B. apply J0. exists x, []. rewrite <- B. now rewrite app_nil_r.
            + assert (y ++ o_tag ++ b = []) as K.
              { apply (last_once c_gt (lit "</details") w); [vm_compute; intuition discriminate | exact B2]. }
              now destruct y.
          - apply J0. exists x, m. rewrite B, <- app_assoc. reflexivity. }
        lia.
    + intros J. rewrite app_assoc, body_of_close. intros a b S.
      apply open_split in S as [(b0 & B & ->)|(a0 & B)]; [| |auto].
      * assert (gt_end b0) as GB.
        { apply (gt_end_suffix (a ++ o_tag)). rewrite <- app_assoc, <- B. exact G. }
        rewrite O_app, C_app, Z, (H _ _ B) by auto. right. lia.
      * apply (fine_0 u0 Z a0 b B).
  - split; [now right|]. intros J. unfold body_of.
    destruct (strip_suffix c_tag (t ++ u)) as [w|] eqn:W; cbn [or_empty].
    2:{ intros [|] b B; discriminate B. }
    exfalso. apply strip_suffix_iff in W.
    assert (NU : ~ infix c_tag u) by now apply occurs_0.
    apply app_split in W as [(m & -> & W)|(m & -> & W)].
    + apply NU. rewrite W. exists m, []. now rewrite app_nil_r.
    + apply gt_end_suffix in G as [->|[x ->]].
      * apply NU. cbn [app] in W. rewrite <- W. apply infix_refl.
      * assert (u = []) as ->.
        { apply (last_once c_gt (lit "</details") x); [vm_compute; intuition discriminate | exact W]. }
        apply J. now rewrite app_nil_r.
Qed.

Lemma details_loop_fine n start r t x r' :
  start = t ++ r -> (O t = C t -> good t \/ r = []) -> (O t <> C t -> fine (body_of t)) ->
  details_loop n start r t = Some (x, r') -> fine (body_of x).
Proof.
  revert r t; induction n as [|n IH]; intros r t E G F; cbn [details_loop];
    rewrite opens_occurs, closes_occurs; destruct (O t =? C t) eqn:Q;
    [easy | | |];
    [apply Nat.eqb_neq in Q; injection 1 as <- _; auto | |
     apply Nat.eqb_neq in Q; injection 1 as <- _; auto].
  apply Nat.eqb_eq in Q. destruct (consume_until_tail_is _ r) as [u r1] eqn:K.
  assert (ER : r = u ++ r1) by now apply consume_until_tail_app in K.
  assert (ES : start = (t ++ u) ++ r1) by now rewrite E, ER, <- app_assoc.
  assert (SF : substring_from start r1 = t ++ u) by (rewrite ES; apply substring_from_app).
  rewrite SF. destruct (G Q) as [GT|R0].
  - destruct (good_step _ _ _ _ GT K) as [A B]. apply IH; auto.
  - rewrite R0 in ER. symmetry in ER. apply app_eq_nil in ER as [-> ->].
    rewrite app_nil_r. apply IH; [rewrite E, R0; reflexivity | |]; auto.
Qed.
Lemma details_loop_ends n start r t :
  start = t ++ r -> O start <> C start -> length r < n -> details_loop n start r t <> None.
Proof.
  revert r t; induction n as [|n IH]; intros r t E N L; [lia|]. cbn [details_loop].
  rewrite opens_occurs, closes_occurs. destruct (O t =? C t) eqn:Q; [|easy].
  apply Nat.eqb_eq in Q. destruct (consume_until_tail_is _ r) as [u r1] eqn:K.
  apply consume_close in K as (ER & U & _).
  assert (ES : start = (t ++ u) ++ r1) by now rewrite E, ER, <- app_assoc.
  assert (SF : substring_from start r1 = t ++ u) by (rewrite ES; apply substring_from_app).
  rewrite SF. apply IH; auto. destruct r as [|c r].
  - exfalso. apply N. now rewrite E, app_nil_r.
  - assert (u <> []) by now apply U. rewrite ER, app_length in L. destruct u; [easy|]. cbn in L. lia.
Qed.

(** ** One block *)
Definition details_text (LOOP : nat) (r2 : cursor) : option (str * cursor) :=
  let (text0, r3) := consume_until_tail_is c_tag r2 in
  if contains o_tag text0 then details_loop LOOP r2 r3 text0 else Some (text0, r3).

Lemma good_nil : good [].
Proof. split; [now left|]. split; [reflexivity|]. intros [|] b B; discriminate B. Qed.
Lemma details_text_fine LOOP r2 x r4 : details_text LOOP r2 = Some (x, r4) -> fine (body_of x).
Proof.
  unfold details_text. destruct (consume_until_tail_is _ r2) as [t0 r3] eqn:K.
  destruct (good_step [] _ _ _ good_nil K) as [A B]. cbn [app] in A, B.
  destruct (contains o_tag t0) eqn:Q.
  - apply details_loop_fine; auto. now apply consume_until_tail_app in K.
  - injection 1 as <- _. destruct (Nat.eq_dec (O t0) (C t0)) as [J|J]; [|auto].
    assert (N : ~ infix o_tag t0) by (rewrite <- contains_iff, Q; discriminate).
    intros a b E. exfalso. apply N. apply infix_trans with (body_of t0).
    + exists a, b. exact E.
    + unfold body_of. apply infix_or_empty_suffix.
Qed.
Lemma details_text_ends LOOP r2 :
  O r2 = 0 \/ O r2 <> C r2 -> length r2 <= LOOP -> details_text LOOP r2 <> None.
Proof.
  intros H L. unfold details_text. destruct (consume_until_tail_is _ r2) as [t0 r3] eqn:K.
  destruct (contains o_tag t0) eqn:Q; [|easy]. apply contains_iff in Q.
  apply consume_close in K as (E & U & _).
  assert (NZ : O r2 <> 0).
  { intros Z. apply occurs_0 in Z; [|easy]. apply Z. eapply infix_trans; [exact Q|].
    rewrite E. now exists [], r3. }
  apply details_loop_ends; [exact E | lia |].
  destruct t0 as [|c t0]; [destruct Q as ([|] & y & Q); discriminate Q|].
  rewrite E, app_length in L. cbn in L. lia.
Qed.
