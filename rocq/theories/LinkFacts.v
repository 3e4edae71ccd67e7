(** * LinkFacts: what [validate_link] accepts and how it is printed. *)
From Coq Require Import Ascii String.
From Verif Require Import Strings StringsFacts Token SanitizeFacts Html.
Open Scope list_scope.

Lemma split_go_hd c s : forall acc, hd [] (split_go [c] 0 acc s) = rev acc ++ take_while (fun x => negb (ceq c x)) s.
Proof.
  induction s as [|x s IH]; intros acc; cbn [split_go starts_with take_while hd]; [now rewrite app_nil_r|].
  rewrite andb_true_r. destruct (ceq c x); cbn [negb hd]; [now rewrite app_nil_r|].
  rewrite IH. cbn [rev]. now rewrite <- app_assoc.
Qed.
Lemma first_part_app a b : ~ In c_colon a -> first_part (a ++ c_colon :: b) = a.
Proof.
  intros N. unfold first_part, split. rewrite split_go_hd. cbn [rev app].
  rewrite take_while_app.
  - rewrite take_while_stop by (now rewrite ceq_refl). apply app_nil_r.
  - apply forallb_forall. intros x I. apply negb_true_iff. apply ceq_neq. intros <-. auto.
Qed.
Lemma last_part_infix s : infix (last_part s) s.
Proof.
  unfold last_part. apply split_infix with [c_colon].
  destruct (split [c_colon] s) as [|x l] eqn:E; [now apply split_go_nonempty in E|].
  rewrite (app_removelast_last (l := x :: l) []) at 2 by easy. apply in_or_app. right. now left.
Qed.

Lemma in_lits a b x : forallb (fun c => mem_char c b) a = true -> In x a -> In x b.
Proof. intros F I. apply mem_char_iff. exact (proj1 (forallb_forall _ _) F x I). Qed.
Definition pchar (x : char) : Prop := In x (lit "%0123456789ABCDEF").
Ltac inl I := revert I; unfold pchar; apply in_lits; vm_compute; reflexivity.

(** The characters of a scheme (token.rs:3-10). *)
Definition scheme_char (c : char) : bool := mem_char c commonmark_scheme_ascii.
Lemma scheme_char_range c : scheme_char c = true ->
  (c = 43 \/ c = 45 \/ c = 46 \/ 48 <= c <= 57 \/ 65 <= c <= 90 \/ 97 <= c <= 122)%N.
Proof.
  unfold scheme_char. rewrite mem_char_iff. intros I.
  assert (A : forallb (fun c => N.eqb c 43 || N.eqb c 45 || N.eqb c 46 || (N.leb 48 c && N.leb c 57)
     || (N.leb 65 c && N.leb c 90) || (N.leb 97 c && N.leb c 122)) commonmark_scheme_ascii = true)
    by (vm_compute; reflexivity).
  apply (proj1 (forallb_forall _ _) A) in I.
  repeat (apply orb_true_iff in I; destruct I as [I|I]);
    try (apply andb_true_iff in I as [I1 I2]; apply N.leb_le in I1, I2; lia);
    apply N.eqb_eq in I; lia.
Qed.

Lemma source_scheme_some src s :
  source_scheme src = Some s ->
  exists a b, src = a ++ c_colon :: b /\ ~ In c_colon a /\ fmt_scheme s = a /\
    forallb scheme_char a = true /\ 2 <= length a <= 32.
Proof.
  unfold source_scheme. destruct (contains_char c_colon src) eqn:E; [|easy]. cbn [andb].
  apply contains_char_iff in E. destruct (split_once c_colon src) as [[a b]|] eqn:ES.
  2:{ apply split_once_none in ES. easy. }
  apply split_once_sound in ES as [-> N]. rewrite first_part_app by exact N.
  destruct (forallb _ a) eqn:EF; [|easy]. cbn [andb].
  destruct (2 <=? length a) eqn:E1; [|easy]. cbn [andb].
  destruct (length a <=? 32) eqn:E2; [|easy]. apply Nat.leb_le in E1, E2. intros H.
  exists a, b. repeat split; auto.
  destruct (str_eqb a (lit "http")); [injection H as <-; reflexivity|].
  destruct (str_eqb a (lit "mailto")); [injection H as <-; reflexivity|].
  destruct (str_eqb a (lit "irc")); injection H as <-; reflexivity.
Qed.
Lemma source_scheme_no_colon src : ~ In c_colon src -> source_scheme src = None.
Proof. intros N. unfold source_scheme. apply contains_char_false in N. now rewrite N. Qed.

Lemma strip_scheme_app a b : strip_scheme a (a ++ c_colon :: b) = b.
Proof.
  unfold strip_scheme. rewrite strip_prefix_app. cbn [or_empty].
  change (c_colon :: b) with ([c_colon] ++ b). now rewrite strip_prefix_app.
Qed.

Lemma validate_inv src u : validate_link src = inl u ->
  (u = mkUrl src None /\ source_scheme src = None) \/
  (u = mkUrl src (Some (SEmail (lit "mailto"))) /\ In c_at src /\ source_scheme src = None) \/
  (exists a b s, src = a ++ c_colon :: b /\ ~ In c_colon a /\ fmt_scheme s = a /\
     forallb scheme_char a = true /\ to_lowercase a <> lit "javascript" /\
     (to_lowercase a = lit "data" -> starts_with (lit "image/") b = true) /\
     url_scheme u = Some s /\
     (url_content u = b \/ (In c_at src /\ url_content u = last_part src))).
Proof.
  unfold validate_link. destruct (negb (is_ascii src) || _); [easy|].
  destruct (split_scheme src) as [sch path] eqn:ES.
  destruct (str_eqb (to_lowercase sch) _ || _) eqn:E1; [easy|].
  destruct (str_eqb (to_lowercase sch) _ && _) eqn:E2; [easy|].
  destruct (negb (length sch =? 0) && _); [easy|]. cbn zeta.
  apply orb_false_iff in E1 as [E1 _].
  destruct (source_scheme src) as [s|] eqn:SS.
  - destruct (source_scheme_some _ _ SS) as (a & b & -> & N & FS & FA & _).
    assert (sch = a /\ path = c_colon :: b) as [-> ->].
    { unfold split_scheme in ES. rewrite split_once_app in ES by exact N. now injection ES as <- <-. }
    assert (J : to_lowercase a <> lit "javascript").
    { intros EQ. rewrite EQ, str_eqb_refl in E1. easy. }
    assert (D : to_lowercase a = lit "data" -> starts_with (lit "image/") b = true).
    { intros EQ. rewrite EQ, str_eqb_refl in E2. cbn [andb] in E2. apply negb_false_iff in E2. exact E2. }
    match goal with |- ?X = inl u -> _ => assert (H : X = inl u -> url_scheme u = Some s /\
      (url_content u = b \/ In c_at (a ++ c_colon :: b) /\ url_content u = last_part (a ++ c_colon :: b))) end.
    { destruct (contains_char c_at _ && _ && negb _) eqn:EA.
      - injection 1 as <-. cbn. split; [auto|]. right. split; [|auto].
        rewrite <- andb_assoc in EA. apply andb_true_iff in EA as [EA _]. now apply contains_char_iff.
      - clear EA. destruct (contains_char c_at _ && _ && _); [easy|].
        destruct s as [p|p|p|p]; injection 1 as <-; cbn in FS; subst p; cbn;
          (split; [auto|]); left; apply strip_scheme_app. }
    intros V. apply H in V as [V1 V2]. right; right. exists a, b, s. tauto.
  - destruct (contains_char c_at _ && _ && negb _) eqn:EA.
    + injection 1 as <-. right; left. repeat split; auto.
      rewrite <- andb_assoc in EA. apply andb_true_iff in EA as [EA _]. now apply contains_char_iff.
    + clear EA. destruct (contains_char c_at _ && _ && _); [easy|]. injection 1 as <-. auto.
Qed.

Lemma validate_no_scheme src u :
  ~ In c_colon src -> ~ In c_at src -> validate_link src = inl u -> url_scheme u = None.
Proof.
  intros NC NA V. apply validate_inv in V as [[-> _]|[[-> [I _]]|(a & b & s & -> & _)]]; [auto|easy|].
  exfalso. apply NC. apply in_or_app. right. now left.
Qed.

(** ** The characters of a printed url *)
Lemma replace_char_in c r s x : In x (replace_char c r s) -> In x r \/ In x s.
Proof.
  unfold replace_char. rewrite in_flat_map. intros (y & I & J).
  destruct (ceq y c); [auto|]. destruct J as [->|[]]; auto.
Qed.
Lemma replace_char_app' c r a b : replace_char c r (a ++ b) = replace_char c r a ++ replace_char c r b.
Proof. apply flat_map_app. Qed.
Lemma percent_in s x : In x (percent_encode s) -> pchar x \/ In x s.
Proof.
  unfold percent_encode. cbn zeta. intros I.
  repeat (apply replace_char_in in I; destruct I as [I|I];
    [left; inl I | ]). auto.
Qed.
Lemma body_in s x : In x (replace_char c_amp (lit "&amp;") (percent_encode s)) ->
  In x (lit "&amp;%0123456789ABCDEF") \/ In x s.
Proof.
  intros I. apply replace_char_in in I as [I|I]; [left|apply percent_in in I as [I|I]; [left|auto]];
    inl I.
Qed.
Lemma percent_app a b : percent_encode (a ++ b) = percent_encode a ++ percent_encode b.
Proof. unfold percent_encode. cbn zeta. now rewrite !replace_char_app'. Qed.

Lemma content_in src u x : validate_link src = inl u -> In x (url_content u) -> In x src.
Proof.
  intros V. apply validate_inv in V as [[-> _]|[[-> _]|(a & b & s & -> & _ & _ & _ & _ & _ & _ & [->|[_ ->]])]]; auto.
  - intros I. apply in_or_app. right. now right.
  - apply infix_In, last_part_infix.
Qed.
Lemma scheme_in src u s x : validate_link src = inl u -> url_scheme u = Some s -> In x (fmt_scheme s) ->
  In x src \/ In x (lit "mailto").
Proof.
  intros V. apply validate_inv in V as [[-> _]|[[-> _]|(a & b & s' & -> & _ & F & _ & _ & _ & E & _)]]; [easy| |].
  - cbn. injection 1 as <-. auto.
  - rewrite E. injection 1 as <-. rewrite F. intros I. left. apply in_or_app. auto.
Qed.
Lemma fmt_url_in src u x : validate_link src = inl u -> In x (fmt_url u) ->
  In x src \/ In x (lit "&amp;%0123456789ABCDEFhttp:mailto:").
Proof.
  intros V. unfold fmt_url. cbn zeta.
  assert (B : In x (replace_char c_amp (lit "&amp;") (percent_encode (url_content u))) ->
    In x src \/ In x (lit "&amp;%0123456789ABCDEFhttp:mailto:")).
  { intros I. apply body_in in I as [I|I]; [right; inl I|].
    left. eapply content_in; eauto. }
  destruct (url_scheme u) as [s|] eqn:E; rewrite in_app_iff.
  - intros [I|[I|I]]; [|right; rewrite <- I; vm_compute; tauto|auto].
    destruct (scheme_in _ _ _ _ V E I) as [J|J]; [auto|]. right. inl J.
  - intros [I|I]; [right; inl I|auto].
Qed.

(** ** The scheme of a printed url *)
Lemma scheme_char_facts c : scheme_char c = true ->
  ignorable c = false /\ N.leb c 32 = false /\ to_lower_c c <> c_colon.
Proof.
  intros H. apply scheme_char_range in H. unfold ignorable, ceq, to_lower_c, c_colon, c_tab, c_nl, c_cr.
  repeat split.
  - apply orb_false_iff; split; [apply orb_false_iff; split|]; apply N.eqb_neq; lia.
  - apply N.leb_gt. lia.
  - destruct (N.leb 65 c && N.leb c 90) eqn:E; [apply andb_true_iff in E as [E1 E2]; apply N.leb_le in E1, E2|]; lia.
Qed.
Lemma strip_name name : forall a b r, ~ In c_colon name -> forallb scheme_char a = true ->
  strip_scheme_ci (name ++ [c_colon]) (a ++ c_colon :: b) = Some r -> to_lowercase a = name /\ r = b.
Proof.
  induction name as [|x name IH]; intros a b r N F.
  - destruct a as [|c a]; cbn [app strip_scheme_ci].
    + change (ignorable c_colon) with false. change (ceq (to_lower_c c_colon) c_colon) with true.
      cbn iota. injection 1 as <-. auto.
    + cbn [forallb] in F. apply andb_true_iff in F as [F _]. apply scheme_char_facts in F as (-> & _ & L).
      apply ceq_neq in L. rewrite L. easy.
  - destruct a as [|c a]; cbn [app strip_scheme_ci].
    + change (ignorable c_colon) with false. cbn iota.
      destruct (ceq (to_lower_c c_colon) x) eqn:E; [|easy]. apply ceq_eq in E.
      change (to_lower_c c_colon) with c_colon in E. exfalso. apply N. now left.
    + cbn [forallb] in F. apply andb_true_iff in F as [F1 F2]. apply scheme_char_facts in F1 as (-> & _ & _).
      destruct (ceq (to_lower_c c) x) eqn:E; [|easy]. apply ceq_eq in E. intros H.
      apply IH in H as [H ->]; auto; [|intros I; apply N; now right].
      split; [|auto]. cbn. now rewrite E, <- H.
Qed.
Lemma url_start_scheme a b : forallb scheme_char a = true -> url_start (a ++ c_colon :: b) = a ++ c_colon :: b.
Proof.
  unfold url_start. destruct a as [|c a]; [reflexivity|]. cbn [app forallb drop_while].
  intros F. apply andb_true_iff in F as [F _]. apply scheme_char_facts in F as (_ & -> & _). reflexivity.
Qed.

(** Every printed url starts with a scheme. *)
Lemma fmt_url_shape src u : validate_link src = inl u ->
  exists a b, fmt_url u = a ++ c_colon :: b /\ forallb scheme_char a = true /\
    to_lowercase a <> lit "javascript" /\
    (~ In c_at src -> to_lowercase a = lit "data" -> starts_with (lit "image/") b = true).
Proof.
  intros V. apply validate_inv in V as [[-> _]|[[-> _]|(a & b & s & -> & N & F & FA & J & D & E & C)]].
  - exists (lit "http"). eexists. split; [reflexivity|]. repeat split; easy.
  - exists (lit "mailto"). eexists. split; [reflexivity|]. repeat split; easy.
  - unfold fmt_url. cbn zeta. rewrite E, F. exists a. eexists. split; [reflexivity|].
    repeat split; auto. intros NA EQ. destruct C as [->|[I _]]; [|easy].
    specialize (D EQ). apply starts_with_iff in D as [y ->]. rewrite percent_app, replace_char_app'.
    apply starts_with_iff. eexists. reflexivity.
Qed.
Lemma not_javascript src u : validate_link src = inl u -> is_javascript (fmt_url u) = false.
Proof.
  intros V. apply fmt_url_shape in V as (a & b & -> & F & J & _).
  unfold is_javascript. rewrite url_start_scheme by exact F.
  destruct (strip_scheme_ci _ _) as [r|] eqn:E; [|auto].
  change (lit "javascript:") with (lit "javascript" ++ [c_colon]) in E.
  apply strip_name in E as [E _]; auto; [easy|]. vm_compute. intuition discriminate.
Qed.
Lemma not_data src u : validate_link src = inl u -> ~ In c_at src -> is_data_not_image (fmt_url u) = false.
Proof.
  intros V NA. apply fmt_url_shape in V as (a & b & -> & F & _ & D).
  unfold is_data_not_image. rewrite url_start_scheme by exact F.
  destruct (strip_scheme_ci _ _) as [r|] eqn:E; [|auto].
  change (lit "data:") with (lit "data" ++ [c_colon]) in E.
  apply strip_name in E as [E ->]; auto; [|vm_compute; intuition discriminate].
  now rewrite D.
Qed.
