(** * GfmFacts: constructs of GitHub's Markdown that the renderer treats differently.

    Facts behind PropertiesGfm.v, by the rules of Markdown.v. *)
From Coq Require Import Ascii String.
From Verif Require Import Strings StringsFacts Token Iter Lexer Parser SanitizeFacts
  Markdown MarkdownFacts MarkdownSound Decode DecodeFacts SpecText TextFacts SpecBlocks BlockFacts SpecGfm.
Open Scope list_scope.

(** ** Markers inside a line *)
Lemma in_the_middle ps a r h f h0 f0 : paragraphs ps -> ordinary a = true -> has_ink a = true -> starts_in [c_nl] a = false ->
  starts_in [c_sp; c_tab; c_nl; c_dot; c_lbrk] r = false ->
  doc false true false 0 LNone r h f -> doc false false false 0 LNone r h0 f0 ->
  doc false false false 0 LNone (before ps ++ a ++ r) (p_tags ps ++ lit "<p>" ++ txt a ++ h) f.
Proof.
  intros P O I A S D D0.
  assert (SI : forall cs, incl cs [c_sp; c_tab; c_nl; c_dot; c_lbrk] -> starts_in cs r = false) by (intros cs L; eapply starts_in_incl; eauto).
  apply before_doc; [exact P|rewrite starts_in_app; [exact A|now apply has_ink_cons]|].
  assert (OB : ord_before r a = true).
  { apply ord_ext; [exact O|apply SI; intros x [<-|[<-|[]]]; vm_compute; tauto| |].
    - rewrite SI; [discriminate|intros x [<-|[]]; vm_compute; tauto].
    - rewrite SI; [discriminate|intros x [<-|[]]; vm_compute; tauto]. }
  pose proof (ord_open false false r h f h0 f0 (SI [c_tab; c_dot] ltac:(intros x [<-|[<-|[]]]; vm_compute; tauto)) D D0 (length a) a (le_n _) OB) as K.
  now rewrite I in K.
Qed.

Lemma hash_in_line ps a n t : paragraphs ps -> paragraph (a ++ [c_sp]) = true -> 1 <= n <= 6 -> heading_ordinary t ->
  renders (before ps ++ a ++ [c_sp] ++ crep n c_hash ++ [c_sp] ++ t) (p_tags ps ++ p_tag (txt a) ++ h_tag n (txt t)).
Proof.
  intros P A B T. destruct (paragraph_parts _ A) as (O1 & I1 & A1 & _). pose proof (heading_ordinary_block n t [] B T (he_blanks [] ltac:(intros x []))) as L.
  unfold heading_src in L. rewrite app_nil_r in L.
  pose proof (L true [] [] _ (or_introl eq_refl) (d_end false false false 0 LNone)) as D.
  pose proof (L false [] [] _ (or_introl eq_refl) (d_end false false false 0 LNone)) as D0.
  rewrite !app_nil_r in D, D0.
  assert (S : starts_in [c_sp; c_tab; c_nl; c_dot; c_lbrk] (crep n c_hash ++ [c_sp] ++ t) = false) by (destruct n; [lia|reflexivity]).
  pose proof (in_the_middle ps (a ++ [c_sp]) _ _ _ _ _ P O1 I1 A1 S D D0) as K. apply doc_renders in K.
  rewrite txt_app in K. change (txt [c_sp]) with (@nil char) in K. rewrite app_nil_r, <- !app_assoc in K. cbn [close_p] in K.
  unfold h_tag, p_tag in *. rewrite !app_assoc, with_nl_ends, <- !app_assoc in K. rewrite <- !app_assoc. exact K.
Qed.

Lemma quote_in_line ps a t : paragraphs ps -> paragraph (a ++ [c_sp]) = true -> ordinary t = true -> has_ink t = true -> no_nl t -> starts_in [c_sp] t = false ->
  renders (before ps ++ a ++ [c_sp] ++ lit "> " ++ t)
    (p_tags ps ++ lit "<p>" ++ txt a ++ lit "</p>" ++ bq_open ++ [c_nl] ++ p_tag (escaped (escaped (ink t))) ++ bq_close ++ [c_nl]).
Proof.
  intros P A O I N S0. destruct (paragraph_parts _ A) as (O1 & I1 & A1 & _).
  assert (D : forall b, doc false b false 0 LNone (lit "> " ++ t) ((if b then lit "</p>" else []) ++ quote_tags 0 1 ++ quoted t ++ close_p false) (mkF false 1 [] [])).
  { intros b. change (lit "> " ++ t) with (quote_line (1, t)). rewrite <- (app_nil_r (quote_line (1, t))).
    apply (quote_one false b false 0 1 t [] _ _ ltac:(lia) O I N S0 (or_introl eq_refl)). apply (d_end false false false 1 LNone). }
  pose proof (in_the_middle ps (a ++ [c_sp]) (lit "> " ++ t) _ _ _ _ P O1 I1 A1 eq_refl (D true) (D false)) as K.
  apply displays_renders. eexists _, _. split; [rewrite <- app_assoc in K; exact K|].
  rewrite txt_app. change (txt [c_sp]) with (@nil char). rewrite app_nil_r.
  unfold fin, quote_tags. cbn [f_quote f_close f_code f_notes notes_html Nat.sub times repeat concat close_p app]. rewrite !app_nil_r.
  fold bq_open bq_close. unfold quoted. rewrite <- !app_assoc. rewrite !app_assoc. rewrite with_nl_ends. rewrite <- !app_assoc. reflexivity.
Qed.

Lemma bullet_in_line ps a m t h : paragraphs ps -> paragraph (a ++ [c_sp]) = true -> In m bullets -> item_text t h ->
  renders (before ps ++ a ++ [c_sp; m; c_sp] ++ t)
    (p_tags ps ++ lit "<p>" ++ txt a ++ lit "<ul>" ++ [c_nl] ++ li_tag (p_tag h) ++ lit "</p>" ++ [c_nl] ++ lit "</ul>" ++ [c_nl]).
Proof.
  intros P A M T. destruct (paragraph_parts _ A) as (O1 & I1 & A1 & _).
  assert (D : forall b, doc false b false 0 LNone ([m; c_sp] ++ t) (list_move LNone LUl ++ li_tag (p_tag h) ++ close_p b) (mkF false 0 (lit "</ul>") [])).
  { intros b. pose proof (ul_item false b false 0 LNone (m, t, h) [] _ _ M T (item_end_crep 0) (or_introl eq_refl) (d_end false b false 0 LUl)) as D.
    rewrite app_nil_r in D. exact D. }
  assert (S : starts_in [c_sp; c_tab; c_nl; c_dot; c_lbrk] ([m; c_sp] ++ t) = false) by (destruct M as [<-|[<-|[<-|[]]]]; reflexivity).
  pose proof (in_the_middle ps (a ++ [c_sp]) _ _ _ _ _ P O1 I1 A1 S (D true) (D false)) as K.
  apply displays_renders. eexists _, _. split; [rewrite <- app_assoc in K; exact K|].
  rewrite txt_app. change (txt [c_sp]) with (@nil char). rewrite app_nil_r, fin_ul. cbn [close_p list_move list_open].
  rewrite <- !app_assoc. reflexivity.
Qed.

Lemma number_in_line ps a d t : paragraphs ps -> paragraph (a ++ [c_sp]) = true -> is_digit d = true -> no_nl t ->
  renders (before ps ++ a ++ [c_sp; d] ++ lit ". " ++ t)
    (p_tags ps ++ lit "<p>" ++ txt a ++ lit "<ol>" ++ [c_nl] ++ li_tag (escaped t) ++ lit "</p>" ++ [c_nl] ++ lit "</ol>" ++ [c_nl]).
Proof.
  intros P A DD N. destruct (paragraph_parts _ A) as (O1 & I1 & A1 & _).
  assert (D : forall b, doc false b false 0 LNone (d :: lit ". " ++ t) ((lit "<ol>" ++ [c_nl]) ++ ol_li t ++ close_p b) (mkF false 0 (lit "</ol>") [])).
  { intros b. rewrite <- (app_nil_r (d :: lit ". " ++ t)). apply (d_ol false b false 0 LNone d t []); auto; [now left|]. apply (d_end false b false 0 LOl). }
  assert (S : starts_in [c_sp; c_tab; c_nl; c_dot; c_lbrk] (d :: lit ". " ++ t) = false).
  { apply digit_in in DD. repeat (destruct DD as [<-|DD]; [reflexivity|]). destruct DD. }
  pose proof (in_the_middle ps (a ++ [c_sp]) _ _ _ _ _ P O1 I1 A1 S (D true) (D false)) as K.
  apply displays_renders. eexists _, _. split; [rewrite <- app_assoc in K; exact K|].
  rewrite txt_app. change (txt [c_sp]) with (@nil char). rewrite app_nil_r, fin_ol. cbn [close_p]. unfold ol_li, li_tag.
  rewrite <- !app_assoc. reflexivity.
Qed.

(** Arrows, and two hyphens, are text if no blank follows. *)
Lemma arrows_shown n : 1 <= n -> shown_in_line renders [c_sp] (crep n c_gt) (escaped (crep n c_gt)).
Proof.
  intros B. apply line_shown; [destruct n; [lia|easy]|destruct n; [lia|reflexivity]|].
  intros b qs T Q NO. apply p_arrows; [exact B|].
  apply (trail_look _ [c_sp]); auto; [|vm_compute; intuition discriminate].
  intros x; vm_compute; intuition.
Qed.
Lemma hyphens_shown a b : In a dashes -> In b dashes -> shown_in_line renders [] [a; b] [a; b].
Proof.
  intros A B. apply line_shown; [easy|destruct A as [<-|[<-|[]]]; reflexivity|].
  intros u qs T Q NO. apply p_dashes; auto. apply (trail_look _ []); auto; [|vm_compute; intuition discriminate].
  intros x; vm_compute; intuition.
Qed.

(** ** Underlined headings *)
Lemma ordinary_cat s r : ordinary (s ++ r) = ord_before r s && ordinary r.
Proof. induction s as [|c s IH]; [reflexivity|]. cbn [app ordinary ord_before]. now rewrite IH, andb_assoc. Qed.
Lemma equals_ordinary n : ordinary (crep n c_equals) = true.
Proof. induction n as [|n IH]; [reflexivity|]. cbn [crep repeat ordinary]. fold (crep n c_equals). rewrite IH. reflexivity. Qed.
Lemma equals_txt n : txt (crep n c_equals) = crep n c_equals.
Proof. induction n as [|n IH]; [reflexivity|]. change (crep (S n) c_equals) with (c_equals :: crep n c_equals). rewrite txt_cons, IH. reflexivity. Qed.
Lemma crep_snoc n (c : char) : crep (S n) c = crep n c ++ [c].
Proof. induction n as [|n IH]; [reflexivity|]. change (c :: crep (S n) c = c :: (crep n c ++ [c])). now rewrite IH. Qed.
Lemma paragraphs_shown ps p qs : paragraphs ps -> paragraph p = true -> paragraphs qs ->
  renders (before ps ++ p ++ after qs) (p_tags ps ++ p_tag (txt p) ++ p_tags qs).
Proof.
  intros P H Q.
  assert (D : doc false false false 0 LNone (before ps ++ p ++ after qs) (p_tags ps ++ p_tag (txt p) ++ p_tags qs) (mkF false 0 [] [])).
  { apply before_doc; [exact P|now apply starts_in_para|]. apply para_doc; auto using after_head. intros b. now apply after_doc. }
  apply doc_renders in D. destruct (p_tags_ends qs) as [E|E].
  - rewrite E, app_nil_r in *. rewrite with_nl_app in D by apply p_tag_ends. exact D.
  - rewrite (app_assoc (p_tags ps)) in *. rewrite with_nl_app in D by exact E. exact D.
Qed.
Lemma underlined_equals ps t n qs : paragraphs ps -> paragraph t = true -> 1 <= n -> paragraphs qs ->
  renders (before ps ++ (t ++ [c_nl] ++ crep n c_equals) ++ after qs) (p_tags ps ++ p_tag (txt t ++ crep n c_equals) ++ p_tags qs).
Proof.
  intros P T N Q. replace (txt t ++ crep n c_equals) with (txt (t ++ [c_nl] ++ crep n c_equals)) by now rewrite !txt_app, equals_txt.
  apply paragraphs_shown; auto. apply paragraph_parts in T as (O & I & S1 & S2). unfold paragraph.
  rewrite ordinary_cat, (ord_ext _ t) by (auto; discriminate).
  assert (E : ordinary ([c_nl] ++ crep n c_equals) = true).
  { cbn [app ordinary]. rewrite equals_ordinary. destruct n; [lia|]. reflexivity. }
  rewrite E, has_ink_app', I, starts_in_app, S1 by now apply has_ink_cons.
  destruct n as [|n]; [lia|]. rewrite crep_snoc, !app_assoc, rev_app_distr. reflexivity.
Qed.
Lemma underlined_dashes ps t n qs : paragraphs ps -> paragraph t = true -> 3 <= n -> paragraphs qs ->
  renders (before ps ++ (t ++ [c_nl] ++ crep n c_minus) ++ after qs)
    (p_tags ps ++ p_tag (txt t ++ lit "<hr />" ++ [c_nl]) ++ p_tags qs).
Proof.
  intros P T N Q. apply paragraph_parts in T as (O & I & S1 & S2).
  assert (D : forall b, doc false b false 0 LNone (crep n c_minus ++ after qs) (lit "<hr />" ++ [c_nl] ++ close_p b ++ p_tags qs) (mkF false 0 [] [])).
  { intros b. apply d_rule; [|now apply after_doc]. apply rl_dashes; [intros x X; apply repeat_spec in X; subst x; now left|now rewrite crep_length|].
    destruct (after_head qs) as [->|[r' ->]]; reflexivity. }
  assert (S : starts_in [c_sp; c_tab; c_nl; c_dot; c_lbrk] (crep n c_minus ++ after qs) = false) by (destruct n; [lia|reflexivity]).
  assert (O' : ordinary (t ++ [c_nl]) = true) by (rewrite ordinary_cat, (ord_ext _ t) by (auto; discriminate); reflexivity).
  assert (I' : has_ink (t ++ [c_nl]) = true) by now rewrite has_ink_app', I.
  assert (A' : starts_in [c_nl] (t ++ [c_nl]) = false) by (rewrite starts_in_app; [exact S1|now apply has_ink_cons]).
  pose proof (in_the_middle ps (t ++ [c_nl]) _ _ _ _ _ P O' I' A' S (D true) (D false)) as K.
  rewrite txt_app in K. change (txt [c_nl]) with (@nil char) in K. rewrite app_nil_r in K.
  assert (E : p_tags ps ++ lit "<p>" ++ txt t ++ lit "<hr />" ++ [c_nl] ++ close_p true ++ p_tags qs
              = p_tags ps ++ p_tag (txt t ++ lit "<hr />" ++ [c_nl]) ++ p_tags qs).
  { unfold p_tag. cbn [close_p]. rewrite <- !app_assoc. reflexivity. }
  rewrite E in K. apply doc_renders in K. rewrite <- !app_assoc in K. rewrite <- !app_assoc.
  destruct (p_tags_ends qs) as [X|X].
  - rewrite X, app_nil_r in *. rewrite with_nl_app in K by apply p_tag_ends. exact K.
  - rewrite (app_assoc (p_tags ps)) in *. rewrite with_nl_app in K by exact X. exact K.
Qed.

(** ** Links by reference *)
Lemma brackets_inline a t b : ordinary a = true -> starts_in [c_bang] (rev a) = false -> ~ In c_rbrk t -> starts_in [c_caret] t = false ->
  ~ In c_nl t -> ~ infix (lit "[^") (lit "[" ++ t ++ lit "]") -> trail b = true -> starts_in [c_lpar] b = false ->
  inline (a ++ (lit "[" ++ t ++ lit "]") ++ b) (txt a ++ escaped (lit "[" ++ t ++ lit "]") ++ txt b).
Proof.
  intros A B NT NC NN NI T S. apply (in_span [c_lpar]); auto.
  - apply sp_brackets; auto. split; [exists c_lbrk, (t ++ lit "]"); now split|]. split; [|now left].
    right. exists (lit "[" ++ t), c_rbrk. rewrite <- app_assoc. now split.
  - pose proof (trail_look (lit "(*_~") [c_lpar] b [] T S) as K. cbn [after map concat] in K. unfold after in K. cbn [map concat] in K. rewrite app_nil_r in K.
    apply K; [intros x; vm_compute; intuition|vm_compute; intuition discriminate].
  - now apply in_end.
Qed.

(** ** Emphasis inside emphasis *)
Lemma ordinary_no_stars t : ordinary t = true -> forall c, In c star_under -> ~ In c t.
Proof. intros O c [<-|[<-|[]]]; apply ordinary_free; auto; vm_compute; tauto. Qed.
Lemma ordinary_starts t cs : ordinary t = true -> incl cs markup_chars -> starts_in cs t = false.
Proof.
  intros O I. destruct t as [|x t]; [reflexivity|]. cbn [starts_in]. destruct (mem_char x cs) eqn:E; [exfalso|reflexivity].
  apply mem_char_iff, I in E. apply (ordinary_free (x :: t) x E O). now left.
Qed.
Lemma stars_literal a n : ordinary a = true -> 1 <= n -> no_nl a -> literal (lit "**" ++ a ++ crep n c_star) /\ literal (lit "**" ++ a).
Proof.
  intros O N NL.
  assert (NB : forall z, ~ In c_lbrk z -> ~ infix (lit "[^") z) by (intros z Z K; apply (infix_In _ _ c_lbrk) in K; [easy|now left]).
  assert (F : ~ In c_lbrk a) by (apply ordinary_free; auto; vm_compute; tauto).
  assert (ST : forall c m, In c (crep m c_star) -> c = c_star) by (intros c m X; now apply repeat_spec in X).
  split; (split; [eexists _, _; now split|]; split; [left|left; apply NB]).
  - rewrite !in_app_iff. intros [K|[K|K]]; [revert K; vm_compute; intuition discriminate|easy|apply ST in K; discriminate K].
  - rewrite !in_app_iff. intros [K|[K|K]]; [revert K; vm_compute; intuition discriminate|easy|apply ST in K; discriminate K].
  - rewrite in_app_iff. intros [K|K]; [revert K; vm_compute; intuition discriminate|easy].
  - rewrite in_app_iff. intros [K|K]; [revert K; vm_compute; intuition discriminate|easy].
Qed.
Lemma nested_emphasis ps a b c d : paragraphs ps -> Forall words_on_line [a; b; c; d] ->
  starts_in [c_sp] c = false ->
  renders (before ps ++ lit "**" ++ a ++ lit "*" ++ b ++ lit "* " ++ c ++ lit "**" ++ d)
    (p_tags ps ++ lit "<p>" ++ escaped (lit "**" ++ a ++ lit "*") ++ txt b ++ lit "<ul>" ++ [c_nl]
     ++ li_tag (p_tag (txt c ++ escaped (lit "**" ++ d))) ++ lit "</p>" ++ [c_nl] ++ lit "</ul>" ++ [c_nl]).
Proof.
  intros P F SC. inversion F as [|? ? (OA & IA & NA) F1]; subst. inversion F1 as [|? ? (OB & IB & NB) F2]; subst.
  inversion F2 as [|? ? (OC & IC & NC) F3]; subst. inversion F3 as [|? ? (OD & ID & ND) _]; subst. clear F F1 F2 F3.
  assert (TN : incl [c_tab] markup_chars) by (intros x [<-|[]]; vm_compute; tauto).
  assert (TAB : forall t, ordinary t = true -> ~ In c_nl t -> starts_in [c_tab; c_nl] t = false).
  { intros t O N. destruct t as [|x t]; [reflexivity|]. pose proof (ordinary_starts _ _ O TN) as K. cbn [starts_in mem_char existsb] in *.
    rewrite orb_false_r in *. rewrite K. apply ceq_neq. intros ->. apply N. now left. }
  (* the item *)
  assert (DI : doc false false false 0 LNone (c ++ lit "**" ++ d) (lit "<p>" ++ txt c ++ escaped (lit "**" ++ d) ++ close_p true) (mkF false 0 [] [])).
  { assert (PD : piece false [] (lit "**" ++ d) true (escaped (lit "**" ++ d))).
    { pose proof (p_no_strong false [] (lit "**") d []) as K. rewrite !app_nil_r in K. apply K; clear K; [now left|discriminate|..]; auto.
      - intros x [<-|[<-|[]]]; now left.
      - now apply has_ink_cons.
      - now apply ordinary_no_stars.
      - now apply (stars_literal d 1); auto. }
    assert (D1 : doc false true false 0 LNone (lit "**" ++ d) (escaped (lit "**" ++ d) ++ close_p true) (mkF false 0 [] [])).
    { rewrite <- (app_nil_r (lit "**" ++ d)) at 1. apply d_more; [exact PD|apply (d_end false true false 0 LNone)]. }
    assert (D0 : doc false false false 0 LNone (lit "**" ++ d) (times 0 (lit "</blockquote>") ++ lit "<p>" ++ escaped (lit "**" ++ d) ++ close_p true) (mkF false 0 [] [])).
    { rewrite <- (app_nil_r (lit "**" ++ d)) at 1. apply d_open; [exact PD|apply (d_end false true false 0 LNone)]. }
    assert (K : ord_before (lit "**" ++ d) c = true) by (apply ord_ext; auto; discriminate).
    pose proof (ord_open false false (lit "**" ++ d) _ _ _ _ eq_refl D1 D0 (length c) c (le_n _) K) as L. now rewrite IC in L. }
  assert (TC : starts_in [c_tab] c = false) by now apply ordinary_starts.
  assert (CE : c <> []) by now apply has_ink_cons.
  assert (EH : txt c ++ escaped (lit "**" ++ d) ++ close_p true = (txt c ++ escaped (lit "**" ++ d)) ++ close_p true) by now rewrite <- app_assoc.
  rewrite EH in DI. change (lit "<p>" ++ (txt c ++ escaped (lit "**" ++ d)) ++ close_p true) with (p_tag (txt c ++ escaped (lit "**" ++ d))) in DI.
  assert (DL : forall b0, doc false b0 false 0 LNone ((c_star :: c_sp :: c ++ lit "**" ++ d) ++ []) (list_move LNone LUl ++ ul_li (fin (p_tag (txt c ++ escaped (lit "**" ++ d))) (mkF false 0 [] [])) ++ close_p b0) (mkF false 0 (lit "</ul>") [])).
  { intros b0. apply (d_ul_star false b0 false 0 LNone c_star (c ++ lit "**" ++ d) []); auto.
    - now left.
    - unfold no_nl. rewrite !in_app_iff. intros [K|[K|K]]; [easy|revert K; vm_compute; intuition discriminate|easy].
    - now left.
    - rewrite starts_in_app; auto.
    - rewrite trim_sp0; [exact DI|]. now rewrite starts_in_app.
    - apply (d_end false b0 false 0 LUl). }
  rewrite app_nil_r in DL. rewrite fin_p_tag in DL.
  assert (NP : pad_code (p_tag (txt c ++ escaped (lit "**" ++ d))) = p_tag (txt c ++ escaped (lit "**" ++ d))).
  { apply pad_code_p_tag. rewrite in_app_iff. unfold txt. intros [K|K]; revert K; apply escaped_no_lt. }
  unfold ul_li in DL. rewrite NP in DL.
  (* the text before it *)
  assert (PA : piece false (b ++ lit "* " ++ c ++ lit "**" ++ d) (lit "**" ++ a ++ lit "*") true (escaped (lit "**" ++ a ++ lit "*"))).
  { apply p_no_strong; [now left|discriminate|..]; auto.
    - intros x; vm_compute; tauto.
    - now apply has_ink_cons.
    - now apply ordinary_no_stars.
    - rewrite starts_in_app by now apply has_ink_cons. apply ordinary_starts; auto. intros x; vm_compute; tauto.
    - discriminate.
    - now apply (stars_literal a 1); auto. }
  pose proof (ord_more false false 0 (lit "* " ++ c ++ lit "**" ++ d) _ _ eq_refl (DL true) (length b) b (le_n _) ltac:(apply ord_ext; auto; discriminate)) as DB.
  pose proof (d_open false false 0 LNone _ _ _ _ _ PA DB) as K.
  apply (before_doc _ _ ps) in K; [|exact P|reflexivity].
  apply displays_renders. eexists _, _. split; [rewrite <- !app_assoc in K; exact K|].
  rewrite fin_ul. cbn [close_p list_move list_open times repeat concat]. unfold li_tag. rewrite <- !app_assoc. reflexivity.
Qed.

(** ** Rows of different lengths *)
Lemma row_bars row : Forall bar_free row -> bars (concat (map (fun x => x ++ [c_pipe]) row)) = length row.
Proof.
  induction 1 as [|x row (_ & NP & _) F IH]; [reflexivity|]. cbn [map concat length]. unfold bars in *.
  rewrite !filter_app, !app_length, IH, (filter_none c_pipe x NP). reflexivity.
Qed.
Lemma uneven_table ps rows r1 r2 : paragraphs ps -> Forall (Forall bar_free) rows -> In r1 rows -> In r2 rows -> length r1 <> length r2 ->
  ~ In c_lbrk (concat (concat rows)) ->
  renders (before ps ++ lines (map row_src rows)) (p_tags ps ++ p_tag (escaped (lines (map row_src rows)))).
Proof.
  intros P F I1 I2 L NB.
  set (cells := fun row : list str => concat (map (fun x => x ++ [c_pipe]) row)).
  assert (E : lines (map row_src rows) = bar_block (map cells rows)) by (unfold bar_block; now rewrite map_map).
  assert (NI : forall x row, In row rows -> In x (cells row) -> x = c_pipe \/ In x (concat (concat rows))).
  { intros x row R X. unfold cells in X. apply in_concat in X as (y & Y & X). apply in_map_iff in Y as (z & <- & Z).
    apply in_app_iff in X as [X|[X|[]]]; [right|now left]. apply in_concat. exists z. split; [|exact X]. apply in_concat. now exists row. }
  rewrite Forall_forall in F.
  pose proof (bars_shown ps (map cells rows) 0 [] P (Forall_nil _)) as K. unfold follow in K. cbn [crep repeat app] in K. rewrite app_nil_r in K.
  rewrite E. apply K; clear K.
  - intros K. apply map_eq_nil in K. subst rows. destruct I1.
  - right. exists (cells r1), (cells r2). split; [now apply in_map|]. split; [now apply in_map|].
    unfold cells. now rewrite !row_bars by (apply F; auto).
  - rewrite Forall_map, Forall_forall. intros row R X. unfold cells in X. apply in_concat in X as (y & Y & X). apply in_map_iff in Y as (z & <- & Z).
    apply in_app_iff in X as [X|[X|[]]]; [|discriminate X]. specialize (F row R). rewrite Forall_forall in F. now apply F in Z as (_ & _ & Z).
  - now left.
  - left. intros K. apply (infix_In _ _ c_lbrk) in K; [|now left]. rewrite <- E in K. clear - K NI NB.
    assert (G : forall ls, In c_lbrk (lines ls) -> exists l, In l ls /\ In c_lbrk l).
    { induction ls as [|l [|l2 ls] IH]; [intros []|intros X; exists l; split; [now left|exact X]|].
      change (lines (l :: l2 :: ls)) with (l ++ [c_nl] ++ lines (l2 :: ls)). rewrite !in_app_iff. intros [X|[[X|[]]|X]]; [exists l; split; [now left|exact X]|discriminate X|].
      destruct (IH X) as (m & M & Y). exists m. split; [now right|exact Y]. }
    apply G in K as (l & L & K). apply in_map_iff in L as (row & <- & R). destruct K as [K|K]; [discriminate K|].
    destruct (NI c_lbrk row R K) as [X|X]; [discriminate X|easy].
Qed.

(** ** Links by reference, as a document *)
Lemma label_inline a t b : label t -> ordinary a = true -> starts_in [c_bang] (rev a) = false -> trail b = true -> starts_in [c_lpar] b = false ->
  inline (a ++ bracketed t ++ b) (txt a ++ escaped (bracketed t) ++ txt b).
Proof.
  intros (NE & N1 & N2 & N3 & N4) A B T S. apply brackets_inline; auto.
  intros (x & y & E). change (c_lbrk :: (t ++ lit "]") = x ++ lit "[^" ++ y) in E. destruct x as [|x0 x]; cbn [app] in E.
  - destruct t as [|z t]; [easy|]. injection E as E0 E. subst z. discriminate N4.
  - apply (f_equal (@tl char)) in E. cbn [tl] in E.
    assert (K : In c_lbrk (t ++ lit "]")) by (rewrite E, in_app_iff; right; now left).
    apply in_app_iff in K as [K|K]; [easy|revert K; vm_compute; intuition discriminate].
Qed.
Lemma bracketed_ink a t b : has_ink (a ++ bracketed t ++ b) = true.
Proof. unfold bracketed. rewrite !has_ink_app'. cbn. now rewrite orb_true_r. Qed.
Lemma reference_shown a t b u : label t -> lead a = true -> trail b = true -> starts_in [c_lpar] b = false -> trail u = true ->
  ordinary ([c_colon; c_sp] ++ u) = true ->
  renders (a ++ bracketed t ++ b ++ blank_line ++ bracketed t ++ [c_colon; c_sp] ++ u)
    (p_tag (txt a ++ escaped (bracketed t) ++ txt b) ++ p_tag (escaped (bracketed t) ++ [c_colon] ++ txt u)).
Proof.
  intros L A B S U OU. apply lead_parts in A as (OA & SA & BA).
  assert (U' : trail ([c_colon; c_sp] ++ u) = true).
  { unfold trail in *. rewrite OU. apply andb_true_iff in U as [_ U]. destruct u as [|x u]; [reflexivity|].
    rewrite rev_app_distr, starts_in_app; [exact U|]. cbn [rev]. destruct (rev u); easy. }
  pose proof (label_inline a t b L OA BA B S) as I1. pose proof (label_inline [] t ([c_colon; c_sp] ++ u) L eq_refl eq_refl U' eq_refl) as I2.
  assert (P1 : para (a ++ bracketed t ++ b) (txt a ++ escaped (bracketed t) ++ txt b)).
  { split; [exact I1|]. split; [apply bracketed_ink|]. destruct a; [reflexivity|exact SA]. }
  assert (P2 : para (bracketed t ++ [c_colon; c_sp] ++ u) (escaped (bracketed t) ++ txt ([c_colon; c_sp] ++ u))).
  { split; [exact I2|]. split; [apply (bracketed_ink [])|reflexivity]. }
  assert (PS : paras (map snd [(0, (bracketed t ++ [c_colon; c_sp] ++ u, escaped (bracketed t) ++ txt ([c_colon; c_sp] ++ u)))])) by (constructor; [exact P2|constructor]).
  pose proof (pgaps_renders _ _ _ P1 PS) as R.
  unfold pgaps, gaps, ptags in R. cbn [map fst snd concat] in R. rewrite !app_nil_r, <- !app_assoc in R. rewrite (txt_app [c_colon; c_sp] u) in R. exact R.
Qed.
(** Text and label side by side. *)
Lemma reference_text_shown a s t : label s -> label t -> lead a = true ->
  renders (a ++ bracketed s ++ bracketed t) (p_tag (txt a ++ escaped (bracketed s) ++ escaped (bracketed t))).
Proof.
  intros LS LT A. apply lead_parts in A as (OA & SA & BA).
  pose proof (label_inline [] t [] LT eq_refl eq_refl eq_refl eq_refl) as I2. cbn [app] in I2. change (txt []) with (@nil char) in I2. cbn [app] in I2. rewrite !app_nil_r in I2.
  assert (I1 : inline (a ++ bracketed s ++ bracketed t) (txt a ++ escaped (bracketed s) ++ escaped (bracketed t))).
  { destruct LS as (NE & N1 & N2 & N3 & N4). apply (in_span [c_lpar]); auto. apply sp_brackets; auto.
    split; [exists c_lbrk, (s ++ lit "]"); now split|]. split; [right; exists (lit "[" ++ s), c_rbrk; rewrite <- app_assoc; now split|].
    left. intros (x & y & E). change (c_lbrk :: (s ++ lit "]") = x ++ lit "[^" ++ y) in E. destruct x as [|x0 x]; cbn [app] in E.
    - destruct s as [|z s]; [easy|]. injection E as E0 E. subst z. discriminate N4.
    - apply (f_equal (@tl char)) in E. cbn [tl] in E. assert (K : In c_lbrk (s ++ lit "]")) by (rewrite E, in_app_iff; right; now left).
      apply in_app_iff in K as [K|K]; [easy|revert K; vm_compute; intuition discriminate]. }
  assert (P1 : para (a ++ bracketed s ++ bracketed t) (txt a ++ escaped (bracketed s) ++ escaped (bracketed t))).
  { split; [exact I1|]. split; [apply bracketed_ink|]. destruct a; [reflexivity|exact SA]. }
  pose proof (pgaps_renders _ _ [] P1 (Forall_nil _)) as R. unfold pgaps, gaps, ptags in R. cbn [map concat] in R. rewrite !app_nil_r in R. exact R.
Qed.

(** ** An underscore in a word *)
Lemma underscore_shown ps a t : paragraphs ps -> lead a = true -> unmarked t -> starts_in [c_tab; c_sp; c_nl] t = false ->
  renders (before ps ++ a ++ [c_under] ++ t) (p_tags ps ++ p_tag (txt a ++ em_tag t)).
Proof.
  intros P A U S. apply line_shown_end; auto; [easy|]. apply unmarked_free in U as [NE F]. apply p_em_open; auto. right. now left.
Qed.
