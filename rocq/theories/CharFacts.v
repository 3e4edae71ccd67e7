(** * CharFacts: where the characters of the page come from.

    Facts behind PropertiesChar.v. *)
From Coq Require Import Ascii String.
From Verif Require Import Strings StringsFacts Token Iter Lexer Parser LexerFacts LexMono Master SanitizeFacts LinkFacts NoPanic
  SizeFacts Safety HtmlFacts Markdown SpecText TextFacts GfmFacts.
Open Scope list_scope.

(** The characters of tags, references and numbers: printable ASCII, tabs and line ends. *)
Definition printable (c : char) : Prop := (32 <= c <= 126)%N \/ c = c_tab \/ c = c_nl.
(** The arrow behind a footnote. *)
Definition arrow : char := 8617%N.
Definition printableb (c : char) : bool := (N.leb 32 c && N.leb c 126) || ceq c c_tab || ceq c c_nl.
Lemma printableb_ok c : printableb c = true -> printable c.
Proof.
  unfold printableb, printable. rewrite !orb_true_iff, andb_true_iff, !N.leb_le. intros [[H|H]|H]; [auto|right; left|right; right]; now apply ceq_eq.
Qed.

Section Chars.
Variable s0 : str.
Definition from (c : char) : Prop := In c s0 \/ printable c \/ (c = arrow /\ In c_lbrk s0).
Definition source (r : str) : Prop := forall c, In c r -> (In c s0 \/ printable c) /\ (c = c_lbrk -> In c_lbrk s0).
Definition page (h : str) : Prop := forall c, In c h -> from c.

Lemma page_lit l : forallb printableb l = true -> page l.
Proof. intros F c I. rewrite forallb_forall in F. right. left. now apply printableb_ok, F. Qed.
Lemma page_app a b : page a -> page b -> page (a ++ b).
Proof. intros A B c I. apply in_app_or in I as [I|I]; auto. Qed.
Lemma page_source s : source s -> page s.
Proof. intros S c I. destruct (S c I) as [[J|J] _]; [left|right; left]; exact J. Qed.
Lemma page_infix a h : infix a h -> page h -> page a.
Proof. intros J H c I. apply H. eapply infix_In; eauto. Qed.
Lemma source_infix a s : infix a s -> source s -> source a.
Proof. intros J H c I. apply H. eapply infix_In; eauto. Qed.
Lemma source_lit l : forallb printableb l = true -> contains_char c_lbrk l = false -> source l.
Proof.
  intros F N c I. rewrite forallb_forall in F. split; [right; now apply printableb_ok, F|].
  intros ->. apply contains_char_false in N. easy.
Qed.
Lemma page_dec n : page (dec n).
Proof.
  intros c I. apply dec_digit in I. right. left. left. unfold is_digit in I. apply andb_true_iff in I as [A B].
  apply N.leb_le in A, B. split; eapply N.le_trans; eauto; discriminate.
Qed.
Lemma source_replace_char d r s : source s -> source r -> source (replace_char d r s).
Proof. intros S R c I. apply replace_char_in in I as [I|I]; auto. Qed.
Lemma page_replace_char d r s : page s -> page r -> page (replace_char d r s).
Proof. intros S R c I. apply replace_char_in in I as [I|I]; auto. Qed.
Lemma source_sanitize s : source s -> source (sanitize s).
Proof.
  intros S. unfold sanitize.
  do 14 (apply source_replace_char; [|apply source_lit; reflexivity]). exact S.
Qed.
Lemma page_sanitize s : source s -> page (sanitize s).
Proof. intros S. now apply page_source, source_sanitize. Qed.
Lemma page_replace_go p r s : page r -> page s -> forall k, page (replace_go p r k s).
Proof.
  intros R. induction s as [|c s IH]; intros S k; [exact S|].
  assert (S' : page s) by (intros x I; apply S; now right).
  cbn [replace_go]. destruct k as [|k]; [|now apply IH]. destruct (starts_with p (c :: s)).
  - apply page_app; auto.
  - intros x [<-|I]; [apply S; now left|exact (IH S' 0 x I)].
Qed.
Lemma page_pieces n ps : (forall t, In t ps -> source t) -> page (footnote_pieces n ps).
Proof.
  revert n. induction ps as [|t ps IH]; intros n H; [intros c []|]. cbn [footnote_pieces].
  assert (T : source t) by (apply H; now left).
  assert (R : forall k, page (footnote_pieces k ps)) by (intros k; apply IH; intros x I; apply H; now right).
  destruct (ends_with _ _); apply page_app; auto using page_source.
  assert (X : page (sanitize (trim_end_by (ceq c_rbrk) (trim_end t)))).
  { apply page_sanitize. eapply source_infix; [apply infix_trim_end_by|]. eapply source_infix; [apply infix_trim_end|exact T]. }
  unfold footnote_ref. repeat apply page_app; auto using page_dec; apply page_lit; reflexivity.
Qed.
Lemma page_url src u : source src -> validate_link src = inl u -> page (fmt_url u).
Proof.
  intros S V c I. apply (fmt_url_in _ _ _ V) in I as [I|I]; [exact (page_source _ S c I)|].
  revert I. apply page_lit. reflexivity.
Qed.
Lemma page_content src u : source src -> validate_link src = inl u -> page (url_content u).
Proof. intros S V c I. apply (content_in _ _ _ V) in I. exact (page_source _ S c I). Qed.
Lemma page_unsafe src u : source src -> validate_link src = inl u -> page (fmt_unsafe u).
Proof.
  intros S V. assert (A : page (replace_char c_amp (lit "&amp;") (url_content u))).
  { apply page_replace_char; [eapply page_content; eauto|apply page_lit; reflexivity]. }
  unfold fmt_unsafe. cbv zeta. destruct (url_scheme u) as [s|] eqn:E; [|apply page_app; [apply page_lit; reflexivity|exact A]].
  assert (G : page (fmt_scheme s ++ [c_colon] ++ replace_char c_amp (lit "&amp;") (url_content u))).
  { apply page_app; [|apply page_app; [apply page_lit; reflexivity|exact A]]. intros c I.
    apply (scheme_in _ _ _ _ V E) in I as [I|I]; [exact (page_source _ S c I)|]. revert I. apply page_lit. reflexivity. }
  destruct s; auto.
Qed.

Lemma char_texts : texts source.
Proof.
  split.
  - exact source_infix.
  - apply source_lit; reflexivity.
  - apply source_lit; reflexivity.
  - exact source_sanitize.
Qed.
Ltac parts := repeat apply page_app; auto using page_dec, page_sanitize; try (apply page_lit; reflexivity).
Lemma char_templates : templates source page.
Proof.
  split.
  - unfold fixed_pieces. repeat (apply Forall_cons; [apply page_lit; reflexivity|]). apply Forall_nil.
  - exact page_app.
  - exact page_sanitize.
  - intros s S. unfold plaintext_html. cbv zeta.
    assert (D : source (drop_blank_tail s)) by (eapply source_infix; [apply infix_drop_blank_tail|exact S]).
    destruct (_ && _).
    + apply page_pieces. intros t I. eapply source_infix; [|exact D]. now apply (split_infix (lit "[^")).
    + apply page_sanitize. eapply source_infix; [apply infix_trim_start_by|exact D].
  - intros n t _ H. assert (T : page t).
    { destruct H as [->|(h & H & ->)]; [intros c []|]. unfold heading_unwrap. eapply page_infix; [apply infix_trim|].
      eapply page_infix; [apply infix_or_empty_suffix|]. eapply page_infix; [apply infix_or_empty_prefix|exact H]. }
    unfold header_html. parts.
  - intros u t _ _ (h & src & c & e & V & _ & _ & S) T.
    assert (SS : source src). { eapply source_infix; [|exact S]. exists ([c_bang] ++ c_lbrk :: t ++ lit "]("), (c :: e). rewrite <- !app_assoc. cbn [app]. now rewrite <- !app_assoc. }
    pose proof (page_content _ _ SS V). unfold image_html. destruct (is_empty _); parts.
  - intros u t h _ (src & c & e & V & _ & _ & S) T H.
    assert (SS : source src). { eapply source_infix; [|exact S]. exists (c_lbrk :: t ++ lit "]("), (c :: e). cbn [app]. now rewrite <- !app_assoc. }
    pose proof (page_url _ _ SS V). unfold link_html. destruct h as [h|]; parts. now apply page_source.
  - intros u _ (src & V & _ & S) _. assert (SS : source src).
    { eapply source_infix; [|exact S]. exists [c_lt], [c_gt]. reflexivity. }
    pose proof (page_url _ _ SS V). pose proof (page_unsafe _ _ SS V). unfold link_html. parts.
  - intros s h S H. unfold detail_html. parts.
  - intros c t T. unfold task_html. destruct c; parts.
  - intros a t T. unfold th_html. cbn [fst snd]. destruct a; parts.
  - intros a h H. unfold td_html. destruct a; parts.
  - intros h H. apply page_replace_go; [apply page_lit; reflexivity|exact H].
  - intros h H. apply page_replace_go; [apply page_lit; reflexivity|exact H].
  - intros a b (r & R & I) A B. assert (L : In c_lbrk s0) by (now apply (R c_lbrk I)).
    assert (AR : page [8617%N]) by (intros c [<-|[]]; right; right; split; [reflexivity|exact L]).
    unfold ref_html. cbn [fst snd]. parts.
Qed.
End Chars.

Lemma chars_from s h c : renders s h -> In c h -> In c s \/ printable c \/ (c = arrow /\ In c_lbrk s).
Proof.
  intros R. apply (renders_ok (source s) (page s) (char_texts s) (char_templates s) s h); [|exact R].
  intros x I. split; [now left|]. intros ->. exact I.
Qed.

(** ** NUL *)
Definition nul : char := 0%N.
Lemma nul_txt p : In nul p -> In nul (txt p).
Proof.
  intros I. unfold txt, escaped, ink. apply in_flat_map. exists nul. split; [|now left]. apply filter_In. now split.
Qed.
Lemma nul_paragraph ps p qs : paragraphs ps -> paragraph p = true -> paragraphs qs -> In nul p ->
  exists h, renders (before ps ++ p ++ after qs) h /\ In nul h.
Proof.
  intros P A Q I. eexists. split; [apply paragraphs_shown; assumption|]. apply in_or_app. right. apply in_or_app. left.
  unfold p_tag. apply in_or_app. right. apply in_or_app. left. now apply nul_txt.
Qed.
Lemma nul_heading ps n t e qs : paragraphs ps -> 1 <= n <= 6 -> heading_ordinary t -> heading_end e -> paragraphs qs -> In nul t ->
  exists h, renders (before ps ++ heading_src n t e ++ after qs) h /\ In nul h.
Proof.
  intros P B O E Q I. destruct (heading_src_head n t e (proj1 B)) as [H1 H2].
  pose proof (line_block_block _ _ H1 H2 (heading_ordinary_block n t e B O E) ps qs P Q) as R.
  eexists. split; [exact R|].
  assert (W : forall h, In nul h -> In nul (with_nl h)).
  { intros h J. unfold with_nl. destruct (ends_with _ h); [exact J|]. apply in_or_app. now left. }
  apply W. apply in_or_app. right. apply in_or_app. left. unfold h_tag. do 3 (apply in_or_app; right).
  apply in_or_app. left. now apply nul_txt.
Qed.
Lemma no_nul s h : ~ In nul s -> renders s h -> ~ In nul h.
Proof.
  intros N R I. destruct (chars_from s h nul R I) as [J|[[[A B]|[A|A]]|[A _]]]; [easy|now apply A|discriminate A..].
Qed.
