(** * SyntaxFacts: marks that are not closed, constructs that reach too far, and variants of the syntax.

    Facts behind PropertiesSyntax.v, by the rules of Markdown.v. *)
From Coq Require Import Ascii String.
From Verif Require Import Strings StringsFacts Token Iter Lexer Parser SanitizeFacts
  Markdown MarkdownFacts MarkdownSound Decode DecodeFacts SpecText TextFacts SpecBlocks BlockFacts SpecGfm GfmFacts SpecSyntax.
Open Scope list_scope.

(** ** Marks that are not closed *)
Lemma literal_behind m t : m <> [] -> forallb visible m = true -> ~ In c_caret m -> ends_visible t ->
  ~ infix (lit "[^") (m ++ t) \/ ~ In c_rbrk t -> ~ In c_rbrk m -> literal (m ++ t).
Proof.
  intros NE V NC (t' & x & -> & X) F R. split; [|split].
  - destruct m as [|y m]; [easy|]. exists y, (m ++ t' ++ [x]). split; [reflexivity|].
    cbn [forallb] in V. apply andb_true_iff in V as [V _]. unfold visible in V. now destruct (is_whitespace y).
  - right. exists (m ++ t'), x. now rewrite <- app_assoc.
  - destruct F as [F|F]; [now left|right]. rewrite in_app_iff. intros [K|K]; easy.
Qed.

Lemma open_bracket ps a t : paragraphs ps -> lead a = true -> ends_visible t -> ~ In c_rbrk t ->
  renders (before ps ++ a ++ lit "[" ++ t) (p_tags ps ++ p_tag (txt a ++ escaped (lit "[" ++ t))).
Proof.
  intros P A E R. apply line_shown_end; auto; [easy|]. apply p_bracket_open; [exact R|].
  apply literal_behind; auto; try easy; vm_compute; intuition discriminate.
Qed.

Lemma open_strong ps a ds t : paragraphs ps -> lead a = true -> In ds [lit "**"; lit "__"; lit "***"; lit "___"] -> unmarked t ->
  ends_visible t -> starts_in [c_tab; c_nl] t = false -> ~ infix (lit "[^") t \/ ~ In c_rbrk t ->
  renders (before ps ++ a ++ ds ++ t) (p_tags ps ++ p_tag (txt a ++ escaped (ds ++ t))).
Proof.
  intros P A D U E S F. apply unmarked_free in U as [NE NT].
  assert (C : (length ds = 2 \/ length ds = 3) /\ incl ds star_under).
  { destruct D as [<-|[<-|[<-|[<-|[]]]]]; (split; [vm_compute; tauto|intros x; vm_compute; tauto]). }
  destruct C as [C1 C2].
  assert (H : ds <> [] /\ starts_in [c_sp; c_tab; c_nl; c_dot] (ds ++ t) = false).
  { destruct D as [<-|[<-|[<-|[<-|[]]]]]; now split. }
  destruct H as [H1 H2]. apply line_shown_end; auto.
  - destruct ds; easy.
  - pose proof (p_no_strong false [] ds t []) as K. rewrite !app_nil_r in K. apply K; auto.
    + destruct C1 as [-> | ->]; discriminate.
    + apply literal_behind; auto.
      * destruct D as [<-|[<-|[<-|[<-|[]]]]]; reflexivity.
      * intros X. apply C2 in X. revert X. vm_compute. intuition discriminate.
      * destruct F as [F|F]; [left|now right]. intros (x & y & K0). apply F.
        assert (G : forall d z, incl d star_under -> d ++ t = z ++ lit "[^" ++ y -> infix (lit "[^") t).
        { induction d as [|c d IH]; intros z I0 K1; [now exists z, y|]. destruct z as [|c' z].
          - injection K1 as K1 _. subst c. specialize (I0 c_lbrk (or_introl eq_refl)). revert I0. vm_compute. intuition discriminate.
          - injection K1 as _ K1. apply (IH z); [|exact K1]. intros w W. apply I0. now right. }
        exact (G ds x C2 K0).
      * intros X. apply C2 in X. revert X. vm_compute. intuition discriminate.
Qed.

Lemma open_strike ps a t : paragraphs ps -> lead a = true -> ~ In c_tilde t -> ends_visible t -> ~ infix (lit "[^") t \/ ~ In c_rbrk t ->
  renders (before ps ++ a ++ lit "~~" ++ t) (p_tags ps ++ p_tag (txt a ++ escaped (lit "~~" ++ t))).
Proof.
  intros P A N E F. apply line_shown_end; auto; [easy|].
  pose proof (p_no_strike false [] t 0) as K. cbn [crep repeat] in K. rewrite app_nil_r in K. apply K; auto.
  - destruct E as (t' & x & -> & _). now destruct t'.
  - apply literal_behind; auto; try easy; try (vm_compute; intuition discriminate).
    destruct F as [F|F]; [left|now right]. intros (x & y & K0). apply F.
    change (lit "~~" ++ t) with (c_tilde :: c_tilde :: t) in K0. destruct x as [|x1 [|x2 x]]; try discriminate K0.
    injection K0 as _ _ K0. now exists x, y.
Qed.

Lemma open_emphasis ps a d t : paragraphs ps -> lead a = true -> In d star_under -> unmarked t -> starts_in [c_tab; c_sp; c_nl] t = false ->
  renders (before ps ++ a ++ [d] ++ t) (p_tags ps ++ p_tag (txt a ++ em_tag t)).
Proof.
  intros P A D U S. apply line_shown_end; auto; [easy|destruct D as [<-|[<-|[]]]; reflexivity|].
  apply unmarked_free in U as [NE F]. now apply p_em_open.
Qed.

(** ** An indented line behind a line of text *)
Lemma indented_behind ps p ws t q qs : paragraphs (p :: q :: ps ++ qs) -> In ws [[c_tab]; lit "    "; lit "  " ++ [c_tab]] ->
  ~ In c_nl t -> ~ In c_hash t -> starts_in blank_chars t = false -> t <> [] ->
  renders (before ps ++ (p ++ [c_nl] ++ ws ++ t ++ [c_nl] ++ q) ++ after qs)
    (p_tags ps ++ lit "<p>" ++ txt p ++ lit "<pre><code>" ++ escaped t ++ [c_nl] ++ txt q ++ lit "</p>" ++ [c_nl] ++ p_tags qs ++ lit "</code></pre>").
Proof.
  intros F W NL NH S0 NE. inversion F as [|? ? PP F1]; subst. inversion F1 as [|? ? PQ F2]; subst. apply Forall_app in F2 as [FP FQ].
  destruct (paragraph_parts _ PP) as (O & I & S1 & S2). destruct (paragraph_parts _ PQ) as (OQ & IQ & S3 & S4).
  assert (TQ : trail q = true) by (unfold trail; now rewrite OQ, S4).
  assert (OB : ord_before (c_nl :: ws ++ t ++ [c_nl] ++ q ++ after qs) p = true) by (apply ord_ext; auto; discriminate).
  assert (DC : doc false true false 0 LNone (ws ++ (t ++ [c_nl]) ++ q ++ after qs)
     (lit "<pre><code>" ++ escaped (t ++ [c_nl]) ++ txt q ++ close_p true ++ p_tags qs) (mkF true 0 [] [])).
  { apply (d_indented false true false 0 ws t (q ++ after qs)); auto. now apply trail_doc. }
  assert (DN : doc false true false 0 LNone (c_nl :: ws ++ t ++ [c_nl] ++ q ++ after qs)
     ([] ++ lit "<pre><code>" ++ escaped (t ++ [c_nl]) ++ txt q ++ close_p true ++ p_tags qs) (mkF true 0 [] [])).
  { rewrite <- app_assoc in DC. apply (d_blank false true false 0 [c_nl]); [|exact DC].
    apply p_newline. destruct W as [<-|[<-|[<-|[]]]]; reflexivity. }
  assert (D0 : exists h0 f0, doc false false false 0 LNone (c_nl :: ws ++ t ++ [c_nl] ++ q ++ after qs) h0 f0).
  { eexists _, _. apply (d_blank false false false 0 [c_nl]); [apply p_newline; destruct W as [<-|[<-|[<-|[]]]]; reflexivity|].
    rewrite (app_assoc t). apply (d_indented false false false 0 ws t (q ++ after qs)); auto. apply para_doc; auto using after_head. intros b. now apply after_doc. }
  destruct D0 as (h0 & f0 & D0).
  pose proof (ord_open false false (c_nl :: ws ++ t ++ [c_nl] ++ q ++ after qs) _ _ _ _ eq_refl DN D0 (length p) p (le_n _) OB) as K. rewrite I in K.
  apply (before_doc false false ps) in K; [|exact FP|rewrite starts_in_app; [exact S1|now apply has_ink_cons]].
  apply doc_renders_code in K. rewrite escaped_app in K. change (escaped [c_nl]) with [c_nl] in K. cbn [close_p app] in K.
  assert (E : forall z, with_nl (z ++ (lit "</p>" ++ [c_nl]) ++ p_tags qs) = z ++ (lit "</p>" ++ [c_nl]) ++ p_tags qs).
  { intros z. destruct (p_tags_ends qs) as [->|[y ->]]; [rewrite app_nil_r|]; rewrite !app_assoc; apply with_nl_ends. }
  rewrite !app_assoc in K. rewrite <- (app_assoc _ (lit "</p>")) in K. rewrite <- (app_assoc _ (lit "</p>" ++ [c_nl])) in K. rewrite E in K.
  rewrite <- !app_assoc in *. exact K.
Qed.

(** ** A backslash at the end of a line *)
Lemma backslash_break ps a b qs : paragraphs ps -> paragraphs qs -> lead a = true -> has_ink a = true -> trail b = true ->
  renders (before ps ++ (a ++ [c_bslash; c_nl] ++ b) ++ after qs) (p_tags ps ++ p_tag (txt a ++ txt b) ++ p_tags qs).
Proof.
  intros P Q A I B. destruct (lead_before a [c_bslash; c_nl] (b ++ after qs) A ltac:(easy) eq_refl) as [O S1].
  pose proof (trail_doc false false b qs B Q) as TD.
  assert (PI : piece false (b ++ after qs) [c_bslash; c_nl] false []) by exact (p_escape false _ c_nl ltac:(discriminate)).
  pose proof (d_blank false true false 0 _ _ _ _ _ PI TD) as D1.
  assert (D0 : exists h0 f0, doc false false false 0 LNone ([c_bslash; c_nl] ++ b ++ after qs) h0 f0).
  { eexists _, _. exact (d_blank false false false 0 _ _ _ _ _ PI (tail_doc false b qs B Q)). }
  destruct D0 as (h0 & f0 & D0).
  pose proof (ord_open false false _ _ _ _ _ S1 D1 D0 (length a) a (le_n _) O) as K. rewrite I in K.
  apply (before_doc false false ps) in K; [|exact P|exact (starts_lead a [c_bslash; c_nl] _ A ltac:(easy) eq_refl)].
  apply doc_renders in K. cbn [app close_p] in K.
  assert (E : forall z, with_nl (z ++ (lit "</p>" ++ [c_nl]) ++ p_tags qs) = z ++ (lit "</p>" ++ [c_nl]) ++ p_tags qs).
  { intros z. destruct (p_tags_ends qs) as [->|[y ->]]; [rewrite app_nil_r|]; rewrite !app_assoc; apply with_nl_ends. }
  rewrite !app_assoc in K. rewrite <- (app_assoc _ (lit "</p>")) in K. rewrite <- (app_assoc _ (lit "</p>" ++ [c_nl])) in K. rewrite E in K.
  unfold p_tag. rewrite <- !app_assoc in *. exact K.
Qed.

(** ** Backticks that are not closed *)
Lemma open_ticks ps a n t : paragraphs ps -> lead a = true -> 1 <= n -> n <> 3 -> starts_in [c_tick] t = false -> ~ infix (crep n c_tick) t ->
  ends_visible t -> ~ In c_rbrk t ->
  renders (before ps ++ a ++ crep n c_tick ++ t) (p_tags ps ++ p_tag (txt a ++ escaped (crep n c_tick ++ t))).
Proof.
  intros P A B N3 S I E R.
  assert (V : forallb visible (crep n c_tick) = true) by (apply forallb_forall; intros x X; apply repeat_spec in X; now subst x).
  assert (NT : forall x, x <> c_tick -> ~ In x (crep n c_tick)) by (intros x X Y; apply repeat_spec in Y; congruence).
  apply line_shown_end; auto.
  - destruct n; [lia|easy].
  - destruct n; [lia|reflexivity].
  - apply p_tick_open; auto.
    + destruct E as (t' & x & -> & _). now destruct t'.
    + apply literal_behind; auto; try (apply NT; discriminate). destruct n; [lia|easy].
Qed.
Lemma open_fence ps a t : paragraphs ps -> lead a = true -> ~ In c_tick t -> ends_visible t -> ~ In c_rbrk t ->
  renders (before ps ++ a ++ lit "```" ++ t) (p_tags ps ++ p_tag (txt a ++ escaped (lit "```" ++ t))).
Proof.
  intros P A N E R. apply line_shown_end; auto; [easy|]. apply p_fence_open; [exact N|].
  apply literal_behind; auto; try easy; vm_compute; intuition discriminate.
Qed.

(** ** A message of the program *)
Lemma message_shown ps a i t b qs : paragraphs ps -> paragraphs qs -> lead a = true -> trail b = true -> starts_in [c_sp] b = false ->
  ~ In c_rbrk i -> existsb is_whitespace i = false -> ~ In c_nl t ->
  renders (before ps ++ (a ++ lit "![^" ++ i ++ lit "]:" ++ t ++ [c_nl] ++ b) ++ after qs)
    (p_tags ps ++ p_tag (txt a ++ lit "Non link token returned from lex_links" ++ txt b) ++ p_tags qs).
Proof.
  intros P Q A B S N1 W N2.
  assert (K : shown_in_line renders [c_sp] (lit "![^" ++ i ++ lit "]:" ++ t ++ [c_nl]) (lit "Non link token returned from lex_links")).
  { apply line_shown; [easy|reflexivity|]. intros b0 qs0 T0 Q0 S0. apply p_bang_note; auto.
    apply (trail_look _ [c_sp]); auto; [intros x; vm_compute; intuition|vm_compute; intuition discriminate]. }
  specialize (K ps a b qs P Q A B S). rewrite <- !app_assoc in *. exact K.
Qed.

(** ** Tables *)
Lemma gaps_shown ps heads delims rows hrows k qs : paragraphs ps -> paragraphs qs -> rows <> [] ->
  length delims = length heads -> Forall (fun row => length row = length heads) rows ->
  Forall cell_src heads -> Forall cell_src delims -> Forall (Forall cell_src) rows ->
  Forall2 (Forall2 (fun x y => cell_shows (trim x) y)) (map filled rows) hrows ->
  renders (before ps ++ table_src heads delims rows ++ follow k qs)
    (with_nl (p_tags ps ++ (if columns (filled delims) (filled heads) =? columns (filled delims) (filled (first_row rows))
        then table_tag (map align_of (filled delims)) (filled heads) hrows else []) ++ p_tags qs)).
Proof.
  intros P Q NR LD LR BH BD BR C. apply doc_renders. apply before_doc; [exact P|reflexivity|].
  unfold table_src. replace (map align_of (filled delims)) with (map (fun x => delim (trim x)) (filled delims)) by (apply map_ext; intros x; apply delim_align).
  apply d_table_gaps; auto.
  - apply follow_head; auto; [vm_compute; tauto|discriminate].
  - pose proof (follow_doc false false 0 k qs Q) as D. cbn [times repeat concat app] in D.
    destruct qs; exact D.
Qed.

(** ** Destinations *)
Lemma parens_shown t u v href : ~ In c_rbrk t -> ~ In c_rpar (u ++ lit "(" ++ v) -> href_of (u ++ lit "(" ++ v) href ->
  shown_in_line renders [] (lit "[" ++ t ++ lit "](" ++ (u ++ lit "(" ++ v ++ lit ")") ++ lit ")") (a_tag href (escaped t) ++ escaped [c_rpar]).
Proof.
  intros N R H ps a b qs P Q A B S.
  pose proof (span_shown [] _ _ (sp_link t (u ++ lit "(" ++ v) href N R H) ps a (lit ")" ++ b) qs P Q A) as K.
  rewrite <- !app_assoc in *. rewrite (txt_app (lit ")") b) in K. apply K; [|reflexivity].
  apply trail_parts in B as [O E]. unfold trail. change (lit ")" ++ b) with (c_rpar :: b). cbn [ordinary].
  change (ordinary_char c_rpar b) with true. rewrite O.
  destruct b as [|x b]; [reflexivity|]. change (rev (c_rpar :: x :: b)) with (rev (x :: b) ++ [c_rpar]).
  rewrite starts_in_app by (cbn [rev]; destruct (rev b); easy). rewrite E. reflexivity.
Qed.

(** ** Boxes behind asterisks *)
Lemma star_task ps m k t : paragraphs ps -> In m star_under -> In k [lit "[ ]"; lit "[x]"; lit "[X]"] -> trail t = true -> ~ In c_nl t ->
  starts_in [c_sp] t = false ->
  renders (before ps ++ [m; c_sp] ++ k ++ [c_sp] ++ t)
    (p_tags ps ++ ul_tag [p_tag (escaped k ++ txt t)]).
Proof.
  intros P M K T N S.
  assert (I : inline (k ++ [c_sp] ++ t) (escaped k ++ txt t)).
  { assert (B : trail ([c_sp] ++ t) = true).
    { apply trail_parts in T as [O E]. unfold trail. cbn [app ordinary]. unfold ordinary_char. rewrite S, O.
      destruct t as [|x t]; [reflexivity|]. change (rev (c_sp :: x :: t)) with (rev (x :: t) ++ [c_sp]).
      rewrite starts_in_app by (cbn [rev]; destruct (rev t); easy). rewrite E. reflexivity. }
    assert (X : exists y, k = lit "[" ++ [y] ++ lit "]" /\ In y (lit " xX")).
    { destruct K as [<-|[<-|[<-|[]]]]; eexists; (split; [reflexivity|vm_compute; tauto]). }
    destruct X as (y & -> & Y).
    apply (brackets_inline [] [y] ([c_sp] ++ t)); auto.
    - intros [Z|[]]. subst y. revert Y. vm_compute. intuition discriminate.
    - destruct Y as [<-|[<-|[<-|[]]]]; reflexivity.
    - intros [Z|[]]. subst y. revert Y. vm_compute. intuition discriminate.
    - intros Z. apply contains_iff in Z. destruct Y as [<-|[<-|[<-|[]]]]; discriminate Z. }
  assert (H : has_ink (k ++ [c_sp] ++ t) = true) by (destruct K as [<-|[<-|[<-|[]]]]; reflexivity).
  pose proof (inline_doc false false _ _ I H) as DI.
  assert (DL : doc false false false 0 LNone ((m :: c_sp :: k ++ [c_sp] ++ t) ++ []) (list_move LNone LUl ++ ul_li (fin (p_tag (escaped k ++ txt t)) (mkF false 0 [] [])) ++ close_p false) (mkF false 0 (lit "</ul>") [])).
  { apply (d_ul_star false false false 0 LNone m (k ++ [c_sp] ++ t) []); auto.
    - unfold no_nl. rewrite !in_app_iff. intros [X|[[X|[]]|X]]; [|discriminate X|easy].
      destruct K as [<-|[<-|[<-|[]]]]; revert X; vm_compute; intuition discriminate.
    - now left.
    - destruct K as [<-|[<-|[<-|[]]]]; reflexivity.
    - rewrite trim_sp0; [exact DI|]. destruct K as [<-|[<-|[<-|[]]]]; reflexivity.
    - apply (d_end false false false 0 LUl). }
  rewrite app_nil_r, fin_p_tag in DL. unfold ul_li in DL.
  rewrite pad_code_p_tag in DL by (rewrite in_app_iff; unfold txt; intros [X|X]; revert X; apply escaped_no_lt).
  apply (before_doc _ _ ps) in DL; [|exact P|destruct M as [<-|[<-|[]]]; reflexivity].
  apply displays_renders. eexists _, _. split; [exact DL|]. rewrite fin_ul. cbn [list_move list_open close_p]. unfold ul_tag, li_tag.
  cbn [map concat]. rewrite !app_nil_r, <- !app_assoc. reflexivity.
Qed.

(** ** Text with inline constructs at the end of a document *)
Lemma inline_shown ps t h : paragraphs ps -> inline t h -> has_ink t = true -> starts_in [c_nl] t = false ->
  renders (before ps ++ t) (p_tags ps ++ p_tag h).
Proof.
  intros P I H S. pose proof (inline_doc false false t h I H) as D. apply (before_doc _ _ ps) in D; [|exact P|exact S].
  apply doc_renders in D. rewrite with_nl_app in D by apply p_tag_ends. exact D.
Qed.
Lemma tilde_free b : trail b = true -> starts_in (lit "*_~") b = false.
Proof. intros T. apply trail_parts in T as [O _]. apply ordinary_starts; [exact O|]. intros x; vm_compute; tauto. Qed.
Lemma tildes_around ps n m a t b : paragraphs ps -> 1 <= n -> n <> 2 -> 1 <= m -> m <> 2 -> lead a = true ->
  ordinary t = true -> has_ink t = true -> starts_in [c_bang] (rev t) = false -> trail b = true ->
  renders (before ps ++ a ++ crep n c_tilde ++ t ++ crep m c_tilde ++ b)
    (p_tags ps ++ p_tag (txt a ++ escaped (crep n c_tilde) ++ txt t ++ escaped (crep m c_tilde) ++ txt b)).
Proof.
  intros P N1 N2 M1 M2 A O I B T. apply lead_parts in A as (OA & SA & BA). apply inline_shown; [exact P| | |].
  - apply (in_span []); auto; [now apply sp_tildes| |].
    + cbn [app]. rewrite starts_in_app by now apply has_ink_cons. apply ordinary_starts; auto. intros x; vm_compute; tauto.
    + apply (in_span []); auto; [now apply sp_tildes|now apply tilde_free|now apply in_end].
  - rewrite !has_ink_app', I. now rewrite !orb_true_r.
  - destruct a as [|x a]; [destruct n; [lia|reflexivity]|exact SA].
Qed.

(** ** Numbers *)
Lemma number_paren ps d t qs : paragraphs ps -> is_digit d = true -> paragraph t = true -> starts_in [c_sp] t = false -> paragraphs qs ->
  renders (before ps ++ ([d] ++ lit ") " ++ t) ++ after qs) (p_tags ps ++ p_tag ([d] ++ escaped [c_rpar] ++ txt t) ++ p_tags qs).
Proof.
  intros P D T S Q. replace ([d] ++ escaped [c_rpar] ++ txt t) with (txt ([d] ++ lit ") " ++ t)).
  - apply paragraphs_shown; auto. apply paragraph_parts in T as (O & I & S1 & S2). unfold paragraph. rewrite !andb_true_iff, !negb_true_iff.
    repeat split.
    + change ([d] ++ lit ") " ++ t) with (d :: c_rpar :: c_sp :: t). cbn [ordinary]. rewrite O.
      replace (ordinary_char c_rpar (c_sp :: t)) with true by reflexivity.
      replace (ordinary_char c_sp t) with true by (unfold ordinary_char; rewrite S; reflexivity).
      rewrite !andb_true_r. apply digit_in in D. repeat (destruct D as [<-|D]; [reflexivity|]). destruct D.
    + change ([d] ++ lit ") " ++ t) with ([d; c_rpar; c_sp] ++ t). rewrite has_ink_app', I. apply orb_true_r.
    + apply digit_in in D. repeat (destruct D as [<-|D]; [reflexivity|]). destruct D.
    + change ([d] ++ lit ") " ++ t) with ([d; c_rpar; c_sp] ++ t). rewrite rev_app_distr, starts_in_app; [exact S2|].
      apply has_ink_cons in I. intros E. apply I. apply (f_equal (@rev char)) in E. now rewrite rev_involutive in E.
  - rewrite !txt_app. change (txt (lit ") ")) with (escaped [c_rpar]). f_equal.
    apply digit_in in D. repeat (destruct D as [<-|D]; [reflexivity|]). destruct D.
Qed.

(** ** Rows without bars around them *)
Lemma bare_piece r t : ~ In c_nl t -> ~ In c_lbrk t -> starts_in [c_pipe] r = false ->
  piece false r (bar_line t ++ [c_nl]) true (escaped (bar_line t)).
Proof.
  intros N L S. apply (p_bars false r [] t).
  - left. cbn. lia.
  - intros x [<-|[]]. exact N.
  - exact S.
  - left. intros K. apply (infix_In _ _ c_lbrk) in K; [|now left]. destruct K as [K|K]; [discriminate K|easy].
Qed.
Lemma bare_start_row a h r h1 f : bare_start a h -> starts_in [c_pipe] r = true -> doc false true false 0 LNone r h1 f ->
  doc false true false 0 LNone (a ++ r) (h ++ h1) f.
Proof.
  intros B R D.
  assert (SI : forall cs, ~ In c_pipe cs -> starts_in cs r = false).
  { destruct r as [|x r]; [discriminate R|]. cbn [starts_in mem_char existsb] in R. rewrite orb_false_r in R. apply ceq_eq in R. subst x.
    intros cs N. cbn [starts_in]. destruct (mem_char c_pipe cs) eqn:E; [apply mem_char_iff in E; easy|reflexivity]. }
  destruct B as [(O & I & S1 & S2 & ->)|[-> ->]].
  - apply (ord_more false false 0 r h1 f) with (n := length a); auto; [apply SI; vm_compute; intuition discriminate|].
    apply ord_ext; [exact O|apply SI; vm_compute; intuition discriminate|now intros _|].
    rewrite SI; [discriminate|]. vm_compute. intuition discriminate.
  - apply d_more; [|exact D]. apply (p_dashes false r c_minus c_minus); [now left|now left|]. apply SI. vm_compute. intuition discriminate.
Qed.
Lemma bare_rows_doc rows : Forall bare_ok rows -> doc false true false 0 LNone (concat (map bare_row rows)) (concat (map bare_html rows) ++ close_p true) (mkF false 0 [] [])
  /\ starts_in [c_pipe] (concat (map bare_row rows)) = false.
Proof.
  induction 1 as [|[[a h] t] rows (B & N & L) F (IH & S)]; [split; [apply (d_end false true false 0 LNone)|reflexivity]|].
  cbn [fst snd] in *. cbn [map concat]. unfold bare_row at 1 3, bare_html at 1. cbn [fst snd]. split.
  - rewrite <- !app_assoc. apply bare_start_row; [exact B|reflexivity|].
    replace ((c_pipe :: t ++ [c_nl]) ++ concat (map bare_row rows)) with ((bar_line t ++ [c_nl]) ++ concat (map bare_row rows)) by reflexivity.
    apply d_more; [|exact IH]. now apply bare_piece.
  - rewrite <- app_assoc. destruct B as [(O & I & _)|[-> _]]; [|reflexivity]. rewrite starts_in_app by now apply has_ink_cons.
    apply ordinary_starts; [exact O|]. intros x [<-|[]]; vm_compute; tauto.
Qed.
Lemma bare_table ps a t rows : paragraphs ps -> lead a = true -> has_ink a = true -> starts_in [c_nl] (rev a) = false -> ~ In c_nl t -> ~ In c_lbrk t ->
  Forall bare_ok rows ->
  renders (before ps ++ concat (map bare_row ((a, txt a, t) :: rows))) (p_tags ps ++ p_tag (concat (map bare_html ((a, txt a, t) :: rows)))).
Proof.
  intros P A I S2 N L F. destruct (bare_rows_doc rows F) as [D S]. apply lead_parts in A as (O & S1 & _).
  pose proof (bare_piece _ t N L S) as PI.
  pose proof (d_more false false 0 _ _ _ _ _ PI D) as D1. pose proof (d_open false false 0 LNone _ _ _ _ _ PI D) as D0.
  pose proof (in_the_middle ps a ((bar_line t ++ [c_nl]) ++ concat (map bare_row rows)) _ _ _ _ P O I S1 eq_refl D1 D0) as K. apply doc_renders in K.
  cbn [map concat]. unfold bare_row at 1, bare_html at 1. cbn [fst snd close_p] in *.
  assert (E : forall z y, with_nl (p_tags ps ++ lit "<p>" ++ txt a ++ z ++ y ++ lit "</p>" ++ [c_nl]) = p_tags ps ++ p_tag ((txt a ++ z) ++ y)).
  { intros z y. unfold p_tag. rewrite !app_assoc. rewrite with_nl_ends. rewrite <- !app_assoc. reflexivity. }
  rewrite E in K. change (c_pipe :: t ++ [c_nl]) with (bar_line t ++ [c_nl]). rewrite <- !app_assoc in *. exact K.
Qed.

(** ** Bars in cells *)
Lemma escaped_bar ps rows pre x y post : paragraphs ps -> Forall (Forall bar_free) rows -> rows <> [] -> bar_free x -> bar_free y ->
  Forall bar_free (pre ++ post) -> Forall (fun row => length row = S (length (pre ++ post))) rows ->
  ~ In c_lbrk (concat (concat rows)) -> ~ In c_lbrk (concat (pre ++ [x; y] ++ post)) ->
  renders (before ps ++ lines (map row_src (rows ++ [pre ++ [x ++ [c_bslash; c_pipe] ++ y] ++ post])))
    (p_tags ps ++ p_tag (escaped (lines (map row_src (rows ++ [pre ++ [x ++ [c_bslash; c_pipe] ++ y] ++ post]))))).
Proof.
  intros P F NE X Y PP LR NB NB2.
  assert (E : row_src (pre ++ [x ++ [c_bslash; c_pipe] ++ y] ++ post) = row_src (pre ++ [x ++ [c_bslash]; y] ++ post)).
  { unfold row_src. rewrite !map_app, !concat_app. cbn [map concat]. rewrite <- !app_assoc. reflexivity. }
  rewrite map_app. cbn [map]. rewrite E. change [row_src (pre ++ [x ++ [c_bslash]; y] ++ post)] with (map row_src [pre ++ [x ++ [c_bslash]; y] ++ post]).
  rewrite <- map_app. destruct rows as [|r1 rows]; [easy|].
  apply Forall_app in PP as [P1 P2].
  assert (BX : bar_free (x ++ [c_bslash])).
  { destruct X as (_ & X1 & X2). split; [destruct x; easy|]. rewrite !in_app_iff. split; intros [Z|[Z|[]]]; try easy; discriminate Z. }
  apply (uneven_table ps _ r1 (pre ++ [x ++ [c_bslash]; y] ++ post)); auto.
  - apply Forall_app. split; [exact F|]. constructor; [|constructor]. apply Forall_app. split; [exact P1|]. constructor; [exact BX|]. constructor; [exact Y|exact P2].
  - now left.
  - apply in_app_iff. right. now left.
  - inversion LR as [|? ? L1 _]; subst. rewrite L1, !app_length. cbn [length app]. unfold str in *. lia.
  - rewrite concat_app, concat_app, in_app_iff. intros [Z|Z]; [easy|]. cbn [concat] in Z. rewrite app_nil_r in Z. apply NB2.
    rewrite !concat_app in *. cbn [concat] in *. rewrite !in_app_iff in *. cbn [In] in *. intuition discriminate.
Qed.

(** ** Lines that continue an item or a quotation *)
Lemma lazy_quote ps t q qs : paragraphs ps -> ordinary t = true -> has_ink t = true -> ~ In c_nl t -> starts_in [c_sp] t = false -> paragraphs (q :: qs) ->
  renders (before ps ++ lit "> " ++ t ++ [c_nl] ++ q ++ after qs)
    (p_tags ps ++ bq_open ++ [c_nl] ++ p_tag (escaped (escaped (ink t))) ++ bq_close ++ p_tags (q :: qs)).
Proof.
  intros P O I N S Q.
  assert (QS : quotes [(1, t)]) by (split; [easy|]; constructor; [|constructor]; cbn [fst snd]; repeat split; auto; lia).
  pose proof (quotes_shown ps [(1, t)] 1 (q :: qs) P QS Q (or_intror (le_n 1))) as K.
  unfold follow in K. change (lines (map quote_line [(1, t)])) with (lit "> " ++ t) in K.
  change (qhtml 0 [(1, t)] (quotes_rest (q :: qs))) with ((bq_open ++ [c_nl]) ++ p_tag (escaped (escaped (ink t))) ++ bq_close ++ p_tags (q :: qs)) in K.
  rewrite <- !app_assoc in K. exact K.
Qed.

(** ** Destinations in angle brackets *)
Lemma angle_dest t u : ~ In c_rbrk t -> ~ In c_rpar u -> schemeless u -> 
  shown_in_line renders [] (lit "[" ++ t ++ lit "](<" ++ u ++ lit ">)") (a_tag (lit "http:<" ++ encoded u ++ lit ">") (escaped t)).
Proof.
  intros T R (U & NA & NC).
  assert (S : schemeless (lit "<" ++ u ++ lit ">")).
  { split; [rewrite !forallb_app, U; reflexivity|]. rewrite !in_app_iff. split; intros [Z|[Z|Z]]; try easy; destruct Z as [Z|[]]; discriminate Z. }
  assert (R' : ~ In c_rpar (lit "<" ++ u ++ lit ">")).
  { rewrite !in_app_iff. intros [Z|[Z|Z]]; try easy; destruct Z as [Z|[]]; discriminate Z. }
  pose proof (span_shown [] _ _ (sp_link t _ _ T R' (href_rel _ S))) as K.
  assert (E : encoded (lit "<" ++ u ++ lit ">") = lit "<" ++ encoded u ++ lit ">") by (unfold encoded; now rewrite !flat_map_app).
  rewrite E in K. intros ps a b qs P Q A B N. specialize (K ps a b qs P Q A B N). rewrite <- !app_assoc in *. exact K.
Qed.

(** ** Empty cells *)
Lemma filled_all row : Forall bar_free row -> filled row = row.
Proof.
  induction 1 as [|x row (NE & _) F IH]; [reflexivity|]. unfold filled in *. cbn [filter]. destruct x; [easy|]. now rewrite IH.
Qed.
Lemma filled_le row : length (filled row) <= length row.
Proof. induction row as [|x row IH]; [reflexivity|]. unfold filled in *. cbn [filter length]. destruct x; cbn [length]; lia. Qed.
Lemma filled_less row : In [] row -> length (filled row) < length row.
Proof.
  intros I. apply in_split in I as (a & b & ->). unfold filled. rewrite filter_app. cbn [filter]. rewrite !app_length. cbn [length].
  pose proof (filled_le a) as A. pose proof (filled_le b) as B. unfold filled, str in *. lia.
Qed.
Lemma bar_free_src row : Forall bar_free row -> Forall cell_src row.
Proof. intros F. eapply Forall_impl; [|exact F]. now intros x (_ & A & B). Qed.
Lemma filled_in row x : In x (filled row) -> In x row /\ x <> [].
Proof. unfold filled. rewrite filter_In. intros [I E]. split; [exact I|]. now intros ->. Qed.
Lemma gaps_ordinary ps heads delims rows k qs : paragraphs ps -> paragraphs qs -> rows <> [] ->
  length delims = length heads -> Forall (fun row => length row = length heads) rows ->
  Forall cell_src heads -> Forall cell_src delims -> Forall (Forall cell_src) rows -> Forall (Forall ordinary_cell) rows ->
  renders (before ps ++ table_src heads delims rows ++ follow k qs)
    (with_nl (p_tags ps ++ (if columns (filled delims) (filled heads) =? columns (filled delims) (filled (first_row rows))
        then table_tag (map align_of (filled delims)) (filled heads) (shown_cells rows) else []) ++ p_tags qs)).
Proof.
  intros P Q NE L1 L2 CH CD CR O. apply gaps_shown; auto. unfold shown_cells. apply Forall2_map. rewrite Forall_forall in *.
  intros row I. apply in_map_iff in I as (row0 & <- & I). apply Forall2_map. specialize (O row0 I). specialize (CR row0 I).
  rewrite Forall_forall in *. intros x X. apply filled_in in X as [X XN]. left. apply cell_ordinary_trim; auto. destruct (CR x X). now split.
Qed.
Lemma gap_vanishes ps heads delims row rows k qs : paragraphs ps -> paragraphs qs -> 
  length delims = length heads -> Forall (fun row => length row = length heads) (row :: rows) ->
  Forall bar_free delims -> Forall (Forall cell_src) (heads :: row :: rows) -> Forall (Forall ordinary_cell) (row :: rows) ->
  (In [] heads /\ Forall bar_free row) \/ (Forall bar_free heads /\ In [] row) ->
  renders (before ps ++ table_src heads delims (row :: rows) ++ follow k qs) (with_nl (p_tags ps ++ p_tags qs)).
Proof.
  intros P Q L1 L2 BD CR O H. inversion CR as [|? ? CH CR1]; subst.
  pose proof (gaps_ordinary ps heads delims (row :: rows) k qs P Q ltac:(easy) L1 L2 CH (bar_free_src _ BD) CR1 O) as K.
  replace (columns (filled delims) (filled heads) =? columns (filled delims) (filled (first_row (row :: rows)))) with false in K; [exact K|].
  symmetry. apply Nat.eqb_neq. unfold columns. cbn [first_row]. rewrite (filled_all delims BD). inversion L2 as [|? ? LR _]; subst.
  destruct H as [[I F]|[F I]]; apply filled_less in I; rewrite (filled_all _ F); unfold str in *; lia.
Qed.
Lemma gap_moves ps heads delims row rows k qs : paragraphs ps -> paragraphs qs -> 
  length delims = length heads -> Forall (fun row => length row = length heads) (row :: rows) ->
  Forall (Forall bar_free) [heads; delims; row] -> Forall (Forall cell_src) rows -> Forall (Forall ordinary_cell) (row :: rows) ->
  renders (before ps ++ table_src heads delims (row :: rows) ++ follow k qs)
    (with_nl (p_tags ps ++ table_tag (map align_of delims) heads (shown_cells (row :: rows)) ++ p_tags qs)).
Proof.
  intros P Q L1 L2 F CR O. inversion F as [|? ? FH F1]; subst. inversion F1 as [|? ? FD F2]; subst. inversion F2 as [|? ? FR _]; subst.
  pose proof (gaps_ordinary ps heads delims (row :: rows) k qs P Q ltac:(easy) L1 L2 (bar_free_src _ FH) (bar_free_src _ FD)
    (Forall_cons _ (bar_free_src _ FR) CR) O) as K.
  replace (columns (filled delims) (filled heads) =? columns (filled delims) (filled (first_row (row :: rows)))) with true in K.
  - rewrite (filled_all _ FD), (filled_all _ FH) in K. exact K.
  - symmetry. apply Nat.eqb_eq. unfold columns. cbn [first_row]. rewrite !filled_all by assumption. inversion L2 as [|? ? LR _]; subst. unfold str in *. lia.
Qed.

(** ** Where texts stand *)
Lemma infix_behind (a b z : str) : infix z b -> infix z (a ++ b).
Proof. intros (x & y & ->). exists (a ++ x), y. now rewrite <- !app_assoc. Qed.
Lemma infix_before (a b z : str) : infix z a -> infix z (a ++ b).
Proof. intros (x & y & ->). exists x, (y ++ b). now rewrite <- !app_assoc. Qed.
Lemma infix_self (z : str) : infix z z.
Proof. exists [], []. now rewrite app_nil_r. Qed.
Lemma task_infix m x t : infix (escaped t) (task_tag [(m, x, t)]).
Proof.
  unfold task_tag, task_item. cbn [map concat]. rewrite app_nil_r. apply infix_behind, infix_before.
  do 3 apply infix_behind. apply infix_before, infix_self.
Qed.
Lemma heads_infix als heads rows : infix (concat (map (fun p => th_tag (fst p) (snd p)) (combine als heads))) (table_tag als heads rows).
Proof. unfold table_tag. do 6 apply infix_behind. apply infix_before, infix_self. Qed.
Lemma infix_nl z s : infix z s -> infix z (with_nl s).
Proof. intros H. unfold with_nl. destruct (ends_with _ _); [exact H|now apply infix_before]. Qed.
