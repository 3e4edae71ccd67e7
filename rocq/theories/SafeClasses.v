(** * SafeClasses: the classes of documents for which Safety.v applies, raw html
    in documents outside of them, and how to recognise unsafe html. *)
From Coq Require Import Ascii String.
From Verif Require Import Strings StringsFacts Token Iter Lexer Parser SanitizeFacts LexerFacts
  LexMono Master Html HtmlFacts LinkFacts Safety Exec.
Open Scope list_scope.

(** [s] contains none of the characters [cs]. *)
Definition free (cs s : str) : Prop := forall c, In c cs -> ~ In c s.

(** The characters of the escapes. *)
Definition esc_alphabet : str :=
  lit "&amp;&lt;&gt;&quot;&apos;&lbrack;&rbrack;&lbrace;&rbrace;&mid;&tilde;&#41;&#40;".
Lemma sanitize_in s x : In x (sanitize s) -> In x s \/ In x esc_alphabet.
Proof.
  rewrite sanitize_flat, in_flat_map. intros (c & I & J). revert I J.
  apply (esc_cases (fun c e => In c s -> In x e -> In x s \/ In x esc_alphabet));
    try (intros _ J; right; revert J; apply in_lits; vm_compute; reflexivity).
  intros c0. do 14 intros _. intros I [<-|[]]. auto.
Qed.
Definition neutral (cs : str) : bool :=
  forallb (fun c => negb (mem_char c (esc_alphabet ++ lit "EOF" ++ lit "Non link token returned from lex_links"))) cs.
Lemma free_texts cs : neutral cs = true -> texts (free cs).
Proof.
  intros N. assert (N' : forall c, In c cs -> ~ In c (esc_alphabet ++ lit "EOF" ++ lit "Non link token returned from lex_links")).
  { intros c I J. apply (proj1 (forallb_forall _ _) N) in I. apply mem_char_iff in J. rewrite J in I. easy. }
  constructor.
  - intros a s I H c C J. apply (H c C). eapply infix_In; eauto.
  - intros c C J. apply (N' c C). rewrite !in_app_iff. auto.
  - intros c C J. apply (N' c C). rewrite !in_app_iff. auto.
  - intros s H c C J. apply sanitize_in in J as [J|J]; [now apply (H c)|].
    apply (N' c C). rewrite !in_app_iff. auto.
Qed.

Definition no_bad : str -> str -> bool := fun _ _ => false.

(** What is asked of a set of bad attribute values. *)
Record bad_ok (bad : str -> str -> bool) : Prop := {
  bo_untab : forall k v, bad k v = false -> bad k (untab v) = false;
  bo_other : forall k v, ends_with (lit " href=") k = false -> ends_with (lit " src=") k = false ->
    ends_with (lit " id=") k = false -> bad k v = false;
  bo_note : forall k, ends_with (lit " id=") k = true -> bad k (lit "fn:1") = false;
  bo_noteref : forall k v, ends_with (lit " id=") k = true -> bad k (lit "fnref:" ++ v) = false;
  bo_hash : forall k v, ends_with (lit " href=") k = true -> bad k (c_hash :: v) = false;
  bo_empty : forall k, ends_with (lit " src=") k = true -> bad k (lit "data:,") = false }.

Lemma href_not_src k : ends_with (lit " src=") k = true -> ends_with (lit " href=") k = false.
Proof.
  intros H. apply ends_with_iff in H as [x ->]. destruct (ends_with (lit " href=") _) eqn:E; [|auto].
  unfold ends_with in E. rewrite rev_app_distr in E. discriminate.
Qed.
Lemma id_not_href_src k : ends_with (lit " id=") k = true ->
  ends_with (lit " href=") k = false /\ ends_with (lit " src=") k = false.
Proof.
  intros H. apply ends_with_iff in H as [x ->].
  split; [destruct (ends_with (lit " href=") _) eqn:E | destruct (ends_with (lit " src=") _) eqn:E]; auto;
    unfold ends_with in E; rewrite rev_app_distr in E; discriminate.
Qed.
Lemma no_bad_ok : bad_ok no_bad.
Proof. constructor; auto. Qed.
Lemma javascript_ok : bad_ok (on_href_src is_javascript).
Proof.
  unfold on_href_src. constructor; intros k.
  - intros v H. destruct (_ || _); cbn [andb] in *; [|auto]. now apply javascript_untab.
  - now intros v -> -> _.
  - intros H. destruct (id_not_href_src k H) as [E1 E2]. now rewrite ?E1, ?E2.
  - intros v H. destruct (id_not_href_src k H) as [E1 E2]. now rewrite ?E1, ?E2.
  - intros v _. destruct (_ || _); reflexivity.
  - intros _. destruct (_ || _); reflexivity.
Qed.
Lemma javascript_href_ok : bad_ok (on_href is_javascript).
Proof.
  unfold on_href. constructor; intros k.
  - intros v H. destruct (ends_with _ k); cbn [andb] in *; [|auto]. now apply javascript_untab.
  - now intros v -> _ _.
  - intros H. destruct (id_not_href_src k H) as [E1 E2]. now rewrite ?E1, ?E2.
  - intros v H. destruct (id_not_href_src k H) as [E1 E2]. now rewrite ?E1, ?E2.
  - intros v _. destruct (ends_with _ k); reflexivity.
  - intros _. destruct (ends_with _ k); reflexivity.
Qed.
Lemma data_ok : bad_ok (on_href is_data_not_image).
Proof.
  unfold on_href. constructor; intros k.
  - intros v H. destruct (ends_with _ k); cbn [andb] in *; [|auto]. now apply data_untab.
  - now intros v -> _ _.
  - intros H. destruct (id_not_href_src k H) as [E1 E2]. now rewrite ?E1, ?E2.
  - intros v H. destruct (id_not_href_src k H) as [E1 E2]. now rewrite ?E1, ?E2.
  - intros v _. destruct (ends_with _ k); reflexivity.
  - intros H. now rewrite href_not_src.
Qed.

(** ** Conditions on the urls of a document *)
Lemma dests_infix pre ok a s : infix a s -> dests pre ok s -> dests pre ok a.
Proof. intros I D t d c e J. apply (D t d c e). eapply infix_trans; eauto. Qed.
Lemma angles_infix ok a s : infix a s -> angles ok s -> angles ok a.
Proof. intros I D d J. apply D. eapply infix_trans; eauto. Qed.
Lemma raw_infix a s : infix a s -> no_raw s -> no_raw a.
Proof.
  intros I [R|R]; [left|right]; intros J; apply R.
  - eapply infix_In; eauto.
  - eapply infix_trans; eauto.
Qed.
Lemma dests_none pre ok s : ~ In c_lbrk s -> dests pre ok s.
Proof.
  intros N t d c e I. exfalso. apply N. eapply infix_In; [exact I|]. apply in_or_app. right. now left.
Qed.
Lemma angles_none ok s : ~ In c_lt s -> angles ok s.
Proof. intros N d I. exfalso. apply N. eapply infix_In; [exact I | now left]. Qed.
Lemma dests_mono pre (p q : str -> str -> Prop) s : (forall d e, p d e -> q d e) -> dests pre p s -> dests pre q s.
Proof. intros H D t d c e I N1 N2 N3 N4. apply H. now apply (D t d c e). Qed.
Lemma dests_and pre (p q : str -> str -> Prop) s : dests pre p s -> dests pre q s ->
  dests pre (fun d e => p d e /\ q d e) s.
Proof. intros D E t d c e I N1 N2 N3 N4. split; [now apply (D t d c e) | now apply (E t d c e)]. Qed.
Lemma dests_bang p s : dests [] p s -> dests [c_bang] p s.
Proof.
  intros D t d c e I. apply (D t d c e). eapply infix_trans; [|exact I]. exists [c_bang], []. now rewrite app_nil_r.
Qed.
Lemma angles_mono (p q : str -> Prop) s : (forall d, p d -> q d) -> angles p s -> angles q s.
Proof. intros H D d I N. apply H. now apply D. Qed.
Lemma angles_and (p q : str -> Prop) s : angles p s -> angles q s -> angles (fun d => p d /\ q d) s.
Proof. intros D E d I N. split; [now apply D | now apply E]. Qed.

Definition urls (D M : str -> str -> Prop) (A : str -> Prop) (s : str) : Prop :=
  no_raw s /\ dests [] D s /\ dests [c_bang] M s /\ angles A s.
Lemma urls_none D M A s : ~ In c_lbrk s -> ~ In c_lt s -> urls D M A s.
Proof. intros N1 N2. split; [now left|]. repeat split; auto using dests_none, angles_none. Qed.
Lemma sanitize_no_lbrk s : ~ In c_lbrk (sanitize s).
Proof. intros I. apply sanitize_no_special in I. discriminate. Qed.
Lemma urls_texts D M A : texts (urls D M A).
Proof.
  constructor.
  - intros a s I (H1 & H2 & H3 & H4). split; [eapply raw_infix; eauto|].
    repeat split; eauto using dests_infix, angles_infix.
  - apply urls_none; vm_compute; intuition discriminate.
  - apply urls_none; vm_compute; intuition discriminate.
  - intros s _. apply urls_none; [apply sanitize_no_lbrk | apply sanitize_no_lt].
Qed.

Lemma fmt_unsafe_in src u x : validate_link src = inl u -> In x (fmt_unsafe u) -> In x src \/ In x (lit "&amp;http:mailto").
Proof.
  intros V. unfold fmt_unsafe.
  assert (A : In x (replace_char c_amp (lit "&amp;") (url_content u)) -> In x src \/ In x (lit "&amp;http:mailto")).
  { intros I. apply replace_char_in in I as [I|I]; [right | left; eapply content_in; eauto].
    revert I. apply in_lits. vm_compute. reflexivity. }
  assert (B : forall a, (In x a -> In x src \/ In x (lit "mailto")) ->
    In x (a ++ [c_colon] ++ replace_char c_amp (lit "&amp;") (url_content u)) -> In x src \/ In x (lit "&amp;http:mailto")).
  { intros a Ha I. apply in_app_iff in I as [I|I].
    - apply Ha in I as [I|I]; [auto|]. right. revert I. apply in_lits. vm_compute. reflexivity.
    - apply in_app_iff in I as [I|I]; [|auto]. right. revert I. apply in_lits. vm_compute. reflexivity. }
  destruct (url_scheme u) as [s|] eqn:E.
  - pose proof (scheme_in src u s x V E) as S. destruct s; first [exact (B _ S) | exact A].
  - intros I. apply in_app_iff in I as [I|I]; [|auto]. right. revert I. apply in_lits. vm_compute. reflexivity.
Qed.
Lemma url_in src u x : validate_link src = inl u -> ~ In x src -> ~ In x (lit "&amp;http:mailto%0123456789ABCDEF") ->
  ~ In x (url_content u) /\ ~ In x (fmt_url u) /\ ~ In x (fmt_unsafe u).
Proof.
  intros V N NL. repeat split; intros I.
  - apply N. eapply content_in; eauto.
  - apply (fmt_url_in _ _ _ V) in I as [I|I]; [auto|]. apply NL. revert I. apply in_lits. vm_compute. reflexivity.
  - apply (fmt_unsafe_in _ _ _ V) in I as [I|I]; [auto|]. apply NL. revert I. apply in_lits. vm_compute. reflexivity.
Qed.
Lemma url_clean src u : validate_link src = inl u -> clean_value src ->
  clean_value (url_content u) /\ clean_value (fmt_url u) /\ clean_value (fmt_unsafe u).
Proof.
  intros V [Q L].
  destruct (url_in src u c_quot V Q ltac:(vm_compute; intuition discriminate)) as (A1 & A2 & A3).
  destruct (url_in src u c_lt V L ltac:(vm_compute; intuition discriminate)) as (B1 & B2 & B3).
  repeat split; auto.
Qed.

(** ** Destinations of images *)
Lemma strip_scheme_colon p v : In c_colon p -> ~ In c_colon v -> strip_scheme_ci p v = None.
Proof.
  revert v. induction p as [|x p IH]; intros v I N; [easy|].
  cbn [strip_scheme_ci]. induction v as [|c v IV]; [auto|].
  assert (Nc : c <> c_colon) by (intros ->; apply N; now left).
  assert (Nv : ~ In c_colon v) by (intros J; apply N; now right).
  destruct (ignorable c); [now apply IV|].
  destruct (ceq (to_lower_c c) x) eqn:E; [|auto]. apply IH; [|exact Nv].
  destruct I as [->|I]; [|exact I]. exfalso. apply ceq_eq in E. apply Nc. revert E. unfold to_lower_c.
  destruct (_ && _) eqn:R; [|auto]. apply andb_true_iff in R as [R1 R2].
  apply N.leb_le in R1. apply N.leb_le in R2. unfold c_colon. lia.
Qed.
Lemma javascript_colon v : ~ In c_colon v -> is_javascript v = false.
Proof.
  intros N. unfold is_javascript. rewrite strip_scheme_colon; [auto | vm_compute; tauto|].
  intros I. apply N. unfold url_start in I. rewrite <- (take_drop (fun c => N.leb c 32) v). apply in_or_app. auto.
Qed.
Lemma split_parts c s : forall acc, ~ In c acc -> forall p, In p (split_go [c] 0 acc s) -> ~ In c p.
Proof.
  induction s as [|x s IH]; intros acc N p; cbn [split_go starts_with].
  - intros [<-|[]]. now rewrite <- in_rev.
  - rewrite andb_true_r. destruct (ceq c x) eqn:E.
    + intros [<-|I]; [now rewrite <- in_rev|]. revert I. apply IH. easy.
    + apply IH. intros [->|I]; [now rewrite ceq_refl in E | contradiction].
Qed.
Lemma last_part_colon s : ~ In c_colon (last_part s).
Proof.
  unfold last_part. destruct (split [c_colon] s) as [|x l] eqn:E; [easy|].
  apply (split_parts c_colon s []); [easy|]. fold (split [c_colon] s). rewrite E.
  rewrite (app_removelast_last (l := x :: l) []) at 2 by easy. apply in_or_app. right. now left.
Qed.
Lemma plain_src_ok src u : validate_link src = inl u -> plain_src src -> is_javascript (url_content u) = false.
Proof.
  intros V [N|(a & b & -> & LA & FA)].
  { apply javascript_colon. intros I. apply N. eapply content_in; eauto. }
  assert (SA : forallb (fun c => mem_char c commonmark_scheme_ascii) a = true).
  { apply forallb_forall. intros x I. apply (proj1 (forallb_forall _ _) FA) in I.
    apply andb_true_iff in I as [R1 R2]. apply N.leb_le in R1. apply N.leb_le in R2.
    assert (E : exists k, (k < 26)%nat /\ x = (97 + N.of_nat k)%N).
    { exists (N.to_nat (x - 97)). split; lia. }
    destruct E as (k & K & ->). do 26 (destruct k as [|k]; [reflexivity|]). lia. }
  assert (NC : ~ In c_colon a).
  { intros I. apply (proj1 (forallb_forall _ _) SA) in I. discriminate. }
  apply validate_inv in V as [[-> S]|[[-> [_ S]]|(a' & b' & s & E & NA & _ & _ & _ & _ & _ & C)]].
  1,2: exfalso; revert S; unfold source_scheme;
    change (a ++ lit "://" ++ b) with (a ++ c_colon :: lit "//" ++ b);
    rewrite first_part_app by exact NC; rewrite SA;
    replace (contains_char c_colon (a ++ c_colon :: lit "//" ++ b)) with true
      by (symmetry; apply mem_char_iff, in_or_app; right; now left);
    replace (2 <=? length a) with true by (symmetry; apply Nat.leb_le; lia);
    replace (length a <=? 32) with true by (symmetry; apply Nat.leb_le; lia);
    cbn [andb]; repeat (destruct (str_eqb a _); [discriminate|]); discriminate.
  destruct C as [->|[_ ->]].
  - assert (a' = a /\ b' = lit "//" ++ b) as [-> ->].
    { change (a ++ lit "://" ++ b) with (a ++ c_colon :: lit "//" ++ b) in E.
      assert (Q : split_once c_colon (a ++ c_colon :: lit "//" ++ b) = split_once c_colon (a' ++ c_colon :: b')) by now rewrite E.
      rewrite !split_once_app in Q by assumption. split; congruence. }
    reflexivity.
  - apply javascript_colon. apply last_part_colon.
Qed.

Section Classes.
Variable bad : str -> str -> bool.
Hypothesis BK : bad_ok bad.
Variables (D M : str -> str -> Prop) (A : str -> Prop).
Hypothesis D_clean : forall d e, D d e -> clean_value d /\ ~ In c_lt e.
Hypothesis A_clean : forall d, A d -> no_url d \/ clean_value d.
Hypothesis D_good : forall k src e u, D src e -> validate_link src = inl u ->
  ends_with (lit " href=") k = true -> bad k (fmt_url u) = false.
Hypothesis A_good : forall k src u, A src -> validate_link src = inl u ->
  ends_with (lit " href=") k = true -> bad k (fmt_url u) = false.
Hypothesis M_good : forall k src e u, M src e -> validate_link src = inl u ->
  ends_with (lit " src=") k = true -> bad k (url_content u) = false.

Lemma link_urls pre t u h : link_at (urls D M A) pre t u h ->
  exists src e, validate_link src = inl u /\ (forall x, h = Some x -> x = c_sp :: e) /\
    (pre = [] -> D src e) /\ (pre = [c_bang] -> M src e).
Proof.
  intros (src & c & e & V & N1 & (N2 & N3 & N4) & _ & HD & HM & _). exists src, e. split; [auto|].
  assert (E : (c = c_rpar /\ e = []) \/ (c = c_sp /\ ~ In c_rpar e)) by tauto.
  split; [|split; intros ->; [apply (HD t src c) | apply (HM t src c)]; auto; apply infix_refl].
  intros x ->. destruct N4 as [(_ & _ & Q)|(_ & _ & Q)]; [discriminate | congruence].
Qed.

Lemma urls_safe s h : urls D M A s -> renders s h -> safe_html bad h.
Proof.
  destruct BK as [B1 B2 B3 B4 B5 B6].
  apply (safe_render bad B1 B2 B3 B4 B5 B6 (urls D M A)).
  - apply urls_texts.
  - intros x Hx. apply Hx.
  - intros t u ht L. apply link_urls in L as (src & e & V & HE & HD & _). specialize (HD eq_refl).
    apply D_clean in HD as [C L].
    destruct (url_clean src u V C) as (C1 & C2 & _). split; [auto|]. split; [auto|].
    intros x Hx. rewrite (HE x Hx). intros [J|J]; [discriminate J | auto].
  - intros u (src & V & N & _ & _ & _ & HA) NS.
    specialize (HA src (infix_refl _) N). apply A_clean in HA as [[NC NA]|C].
    + exfalso. apply NS. eapply validate_no_scheme; eauto.
    + destruct (url_clean src u V C) as (_ & C2 & C3). split; [auto | apply C3].
  - intros k t u ht L. apply link_urls in L as (src & e & V & _ & HD & _). eapply D_good; eauto.
  - intros k u (src & V & N & _ & _ & _ & HA). eapply A_good; [|exact V]. apply HA; [apply infix_refl | exact N].
  - intros k t u ht L. apply link_urls in L as (src & e & V & _ & _ & HM). eapply M_good; eauto.
Qed.
End Classes.

(** ** Ids *)
Lemma other_id_ok : bad_ok other_id.
Proof.
  unfold other_id. constructor; intros k.
  - intros v H. destruct (ends_with _ k); cbn [andb] in *; [|auto]. apply negb_false_iff in H. apply negb_false_iff.
    apply orb_true_iff in H as [H|H]; apply orb_true_iff.
    + left. apply str_eqb_eq in H as ->. reflexivity.
    + right. apply starts_with_iff in H as [r ->]. rewrite untab_app. apply starts_with_iff. now exists (untab r).
  - now intros v _ _ ->.
  - intros ->. reflexivity.
  - intros v ->. reflexivity.
  - intros v H. destruct (ends_with (lit " id=") k) eqn:E; [|reflexivity].
    destruct (id_not_href_src k E). congruence.
  - intros H. destruct (ends_with (lit " id=") k) eqn:E; [|reflexivity].
    destruct (id_not_href_src k E). congruence.
Qed.

Lemma fills_mono (bad bad' : str -> str -> bool) : (forall k v, bad k v = false -> bad' k v = false) ->
  forall k b, fills bad k b -> fills bad' k b.
Proof. intros H k b F. induction F; [apply f_nil | apply f_char | apply f_fixed | apply f_open]; auto. Qed.
Lemma safe_mono (bad bad' : str -> str -> bool) h : (forall k v, bad k v = false -> bad' k v = false) ->
  safe_html bad h -> safe_html bad' h.
Proof.
  intros H (ps & -> & F). exists ps. split; [reflexivity|]. eapply Forall_impl; [|exact F].
  intros p [C|(k & b & I & J & ->)]; [now left|]. right. exists k, b. split; [exact I|]. split; [|reflexivity].
  eapply fills_mono; eauto.
Qed.

(** ** Checking the conditions *)
Fixpoint every_tail (f : str -> bool) (s : str) : bool :=
  f s && match s with [] => true | _ :: s' => every_tail f s' end.
Lemma every_tail_infix f a s : every_tail f s = true -> infix a s -> exists y, f (a ++ y) = true.
Proof.
  intros H (x & y & ->). exists y. revert H. generalize (a ++ y). clear a y. induction x as [|c x IH]; intros z.
  - destruct z; cbn [app every_tail]; intros H; apply andb_true_iff in H; tauto.
  - cbn [app every_tail]. intros H. apply andb_true_iff in H as [_ H]. auto.
Qed.
Definition not_rbrk (c : char) : bool := negb (ceq c c_rbrk).
Definition not_rpar (c : char) : bool := negb (ceq c c_rpar).
Definition not_gt (c : char) : bool := negb (ceq c c_gt).
Definition not_dest_end (c : char) : bool := negb (ceq c c_rpar) && negb (ceq c c_sp).
Definition dest_check (pre : str) (f : str -> str -> bool) (s : str) : bool :=
  match strip_prefix (pre ++ [c_lbrk]) s with
  | None => true
  | Some r => match strip_prefix (lit "](") (drop_while not_rbrk r) with
              | None => true
              | Some d =>
                  match drop_while not_dest_end d with
                  | [] => true
                  | c :: e => f (take_while not_dest_end d) (if ceq c c_sp then take_while not_rpar e else [])
                  end
              end
  end.
Definition angle_check (f : str -> bool) (s : str) : bool :=
  match strip_prefix [c_lt] s with
  | None => true
  | Some r => match drop_while not_gt r with [] => true | _ => f (take_while not_gt r) end
  end.
Lemma forallb_not c s : ~ In c s -> forallb (fun x => negb (ceq x c)) s = true.
Proof.
  intros N. apply forallb_forall. intros x I. apply negb_true_iff. destruct (ceq x c) eqn:E; [|auto].
  apply ceq_eq in E as ->. contradiction.
Qed.
Lemma strip_prefix_app p s : strip_prefix p (p ++ s) = Some s.
Proof. apply strip_prefix_iff. reflexivity. Qed.
Lemma dests_check pre f (ok : str -> str -> Prop) s : (forall d a b, f d (a ++ b) = true -> ok d a) ->
  every_tail (dest_check pre f) s = true -> dests pre ok s.
Proof.
  intros H E t d c e I N1 N2 N3 N4. apply (every_tail_infix _ _ _ E) in I as [y Y]. unfold dest_check in Y.
  change (c_lbrk :: t ++ lit "](" ++ d ++ c :: e) with ([c_lbrk] ++ (t ++ lit "](" ++ d ++ c :: e)) in Y.
  rewrite (app_assoc pre), <- (app_assoc (pre ++ [c_lbrk])), strip_prefix_app, <- !app_assoc in Y.
  rewrite (drop_while_app not_rbrk t) in Y by now apply forallb_not.
  change (drop_while not_rbrk (lit "](" ++ d ++ (c :: e) ++ y)) with (lit "](" ++ d ++ (c :: e) ++ y) in Y.
  assert (FD : forallb not_dest_end d = true).
  { apply forallb_forall. intros x J. unfold not_dest_end. apply andb_true_iff. split; apply negb_true_iff;
      destruct (ceq x _) eqn:Q; auto; apply ceq_eq in Q; subst x; contradiction. }
  rewrite strip_prefix_app, (drop_while_app not_dest_end d), (take_while_app not_dest_end d) in Y by exact FD.
  destruct N4 as [[-> ->]|[-> N4]].
  - change (drop_while not_dest_end ([c_rpar] ++ y)) with (c_rpar :: y) in Y.
    change (take_while not_dest_end ([c_rpar] ++ y)) with (@nil char) in Y.
    change (ceq c_rpar c_sp) with false in Y. cbn iota in Y. rewrite app_nil_r in Y. now apply (H d [] []).
  - change (drop_while not_dest_end ((c_sp :: e) ++ y)) with (c_sp :: e ++ y) in Y.
    change (take_while not_dest_end ((c_sp :: e) ++ y)) with (@nil char) in Y.
    change (ceq c_sp c_sp) with true in Y. cbn iota in Y. rewrite app_nil_r in Y.
    rewrite (take_while_app not_rpar e) in Y by now apply forallb_not. now apply H in Y.
Qed.
Lemma angles_check f (ok : str -> Prop) s : (forall a, f a = true -> ok a) ->
  every_tail (angle_check f) s = true -> angles ok s.
Proof.
  intros H E d I N. apply (every_tail_infix _ _ _ E) in I as [y Y]. unfold angle_check in Y.
  change (c_lt :: d ++ [c_gt]) with ([c_lt] ++ (d ++ [c_gt])) in Y.
  rewrite <- app_assoc, strip_prefix_app, <- app_assoc in Y.
  rewrite (drop_while_app not_gt d), (take_while_app not_gt d) in Y by now apply forallb_not.
  cbn in Y. rewrite app_nil_r in Y. auto.
Qed.
Lemma not_mem c s : negb (mem_char c s) = true -> ~ In c s.
Proof. intros E I. apply mem_char_iff in I. rewrite I in E. discriminate. Qed.
Definition clean_dest_check (d e : str) : bool :=
  negb (mem_char c_quot d) && negb (mem_char c_lt d) && negb (mem_char c_lt e).
Lemma clean_dest_checked d a b : clean_dest_check d (a ++ b) = true -> clean_value d /\ ~ In c_lt a.
Proof.
  unfold clean_dest_check. intros H. apply andb_true_iff in H as [H H3]. apply andb_true_iff in H as [H1 H2].
  apply not_mem in H1, H2, H3. rewrite in_app_iff in H3. repeat split; auto.
Qed.
Definition angle_url_check (d : str) : bool :=
  (negb (mem_char c_colon d) && negb (mem_char c_at d)) || (negb (mem_char c_quot d) && negb (mem_char c_lt d)).
Lemma angle_url_checked d : angle_url_check d = true -> no_url d \/ clean_value d.
Proof.
  unfold angle_url_check. intros H.
  apply orb_true_iff in H as [H|H]; apply andb_true_iff in H as [H1 H2]; [left|right]; split; now apply not_mem.
Qed.
Definition raw_check (s : str) : bool := negb (mem_char c_lt s) || negb (contains (lit "[^") s).
Lemma raw_checked s : raw_check s = true -> no_raw s.
Proof.
  intros H. apply orb_true_iff in H as [H|H]; apply negb_true_iff in H; [left|right]; intros I.
  - apply mem_char_iff in I. congruence.
  - apply contains_iff in I. congruence.
Qed.
Definition harmless_check (s : str) : bool :=
  raw_check s && every_tail (dest_check [] clean_dest_check) s && every_tail (angle_check angle_url_check) s.
Lemma harmless_checked s : harmless_check s = true -> harmless s.
Proof.
  intros H. apply andb_true_iff in H as [H H3]. apply andb_true_iff in H as [H1 H2].
  split; [now apply raw_checked|]. split.
  - eapply dests_check; [exact clean_dest_checked | exact H2].
  - eapply angles_check; [exact angle_url_checked | exact H3].
Qed.

(** Documents in one of three simpler classes. *)
Lemma dest_in pre t d c e s x : infix (pre ++ c_lbrk :: t ++ lit "](" ++ d ++ c :: e) s -> In x d \/ In x e -> In x s.
Proof.
  intros I J. eapply infix_In; [exact I|]. apply in_or_app. right. right.
  apply in_or_app. right. apply in_or_app. right. apply in_or_app. destruct J; [auto | right; now right].
Qed.
Lemma angle_in d s x : infix (c_lt :: d ++ [c_gt]) s -> In x d -> In x s.
Proof. intros I J. eapply infix_In; [exact I|]. right. apply in_or_app. now left. Qed.
Lemma harmless_classes s : free (lit "[:@") s \/ free (lit "[<") s \/ free (lit "<""") s -> harmless s.
Proof.
  intros [F|[F|F]].
  - assert (NB : ~ In c_lbrk s) by (apply F; now left). split; [right|split; [now apply dests_none|]].
    + intros I. apply NB. eapply infix_In; [exact I | now left].
    + intros d I _. left. split; intros J; [apply (F c_colon) | apply (F c_at)];
        try (cbn; tauto); eapply angle_in; eauto.
  - assert (NB : ~ In c_lbrk s) by (apply F; now left). assert (NL : ~ In c_lt s) by (apply F; right; now left).
    split; [now left|]. split; [now apply dests_none | now apply angles_none].
  - assert (NL : ~ In c_lt s) by (apply F; now left). assert (NQ : ~ In c_quot s) by (apply F; right; now left).
    split; [now left|]. split; [|now apply angles_none]. intros t d c e I _ _ _ _.
    repeat split; intros J; [apply NQ | apply NL..]; eapply dest_in; eauto.
Qed.
Lemma no_leak_harmless s : harmless s -> no_leak s.
Proof.
  intros (H1 & H2 & H3). split; [auto|]. split.
  - eapply dests_mono; [|exact H2]. now intros d e [[_ D] E].
  - eapply angles_mono; [|exact H3]. intros d [D|[_ D]]; auto.
Qed.
Lemma no_leak_lt s : ~ In c_lt s -> no_leak s.
Proof.
  intros N. split; [now left|]. split; [|now apply angles_none]. intros t d c e I _ _ _ _. split; intros J; apply N; eapply dest_in; eauto.
Qed.

(** ** Recognising unsafe html *)
Definition not_quot (c : char) : bool := negb (ceq c c_quot).
Lemma fills_no_lt bad k b : fills bad k b -> ~ In c_lt k -> ~ In c_lt b.
Proof.
  induction 1 as [|k b c _ IH N1 N2 N3|k b v _ IH _ [N N']|k b v _ IH _ [N1 N2] _];
    rewrite ?in_app_iff; cbn [In]; intros H I;
    repeat match type of I with _ \/ _ => destruct I as [I|I] end;
    first [tauto | congruence | discriminate I].
Qed.
Lemma take_while_snoc f (a b : str) x y :
  take_while f a = take_while f b -> (forallb f a = true <-> forallb f b = true) ->
  take_while f x = take_while f y ->
  take_while f (a ++ x) = take_while f (b ++ y).
Proof.
  assert (K : forall a x, forallb f a = false -> take_while f (a ++ x) = take_while f a).
  { clear. intros a; induction a as [|c a IH]; intros x; cbn; [easy|]. destruct (f c); cbn; [|auto].
    intros H. now rewrite IH. }
  intros E F G. destruct (forallb f a) eqn:FA.
  - rewrite !take_while_app; [|now apply F|auto].
    rewrite (take_while_all f a FA), (take_while_all f b (proj1 F eq_refl)) in E. now rewrite E, G.
  - assert (FB : forallb f b = false).
    { destruct (forallb f b); [|auto]. symmetry. now apply F. }
    now rewrite (K a x FA), (K b y FB).
Qed.
Lemma fills_head bad k b : fills bad k b ->
  take_while not_quot k = take_while not_quot b /\ (forallb not_quot k = true <-> forallb not_quot b = true).
Proof.
  induction 1 as [|k b c _ [E F] N1 N2 N3|k b v _ [E F] _ _|k b v _ [E F] _ _ _].
  - split; [auto | tauto].
  - split; [now apply take_while_snoc|]. rewrite !forallb_app, !andb_true_iff. tauto.
  - split; [now apply take_while_snoc|]. rewrite !forallb_app. cbn. rewrite !andb_false_r. tauto.
  - split; [apply take_while_snoc; auto|]. rewrite !forallb_app. cbn. rewrite !andb_false_r. tauto.
Qed.

Lemma split_lt (a x y r : str) : ~ In c_lt a -> a ++ r = x ++ c_lt :: y -> exists x', x = a ++ x' /\ r = x' ++ c_lt :: y.
Proof.
  revert x; induction a as [|c a IH]; intros x N E; [exists x; auto|].
  destruct x as [|d x]; cbn [app] in E.
  - exfalso. apply N. left. congruence.
  - assert (c = d) as <- by congruence. assert (E' : a ++ r = x ++ c_lt :: y) by congruence.
    apply IH in E' as (x' & -> & ->); [|intros I; apply N; now right]. exists x'. auto.
Qed.
Lemma safe_lt bad h : safe_html bad h -> forall x y, h = x ++ c_lt :: y ->
  exists k b r, In k allowed_tags /\ y = b ++ c_gt :: r /\ take_while not_quot k = take_while not_quot b.
Proof.
  intros (ps & -> & F). induction F as [|p ps H _ IH]; cbn [concat]; intros x y E.
  { destruct x; discriminate E. }
  destruct H as [(c & -> & N)|(k & b & I & FL & ->)].
  - apply split_lt in E as (x' & _ & E); [eauto|]. intros [->|[]]. auto.
  - assert (NL : ~ In c_lt b).
    { eapply fills_no_lt; [exact FL|]. intros J.
      assert (A : forallb (fun k => negb (contains_char c_lt k)) allowed_tags = true) by (vm_compute; reflexivity).
      apply (proj1 (forallb_forall _ _) A) in I. apply negb_true_iff, contains_char_false in I. auto. }
    destruct x as [|d x]; cbn [app] in E.
    + assert (E' : (b ++ [c_gt]) ++ concat ps = y) by congruence.
      exists k, b, (concat ps). split; [auto|]. split; [|now apply (fills_head bad)].
      rewrite <- E', <- app_assoc. reflexivity.
    + assert (E' : (b ++ [c_gt]) ++ concat ps = x ++ c_lt :: y) by congruence.
      apply split_lt in E' as (x' & _ & E'); [eauto|].
      rewrite in_app_iff. cbn [In]. intros [J|[J|[]]]; [auto | discriminate J].
Qed.
Lemma unsafe bad x y :
  existsb (fun k => starts_with (take_while not_quot k) y) allowed_tags = false ->
  ~ safe_html bad (x ++ c_lt :: y).
Proof.
  intros E S. destruct (safe_lt bad _ S x y eq_refl) as (k & b & r & I & -> & K).
  assert (T : existsb (fun k => starts_with (take_while not_quot k) (b ++ c_gt :: r)) allowed_tags = true).
  { apply existsb_exists. exists k. split; [auto|]. rewrite K. apply starts_with_iff.
    exists (drop_while not_quot b ++ c_gt :: r). now rewrite app_assoc, take_drop. }
  congruence.
Qed.
