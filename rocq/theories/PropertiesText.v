(** * Properties: paragraphs and inline constructs (C08 - C17, C31 - C37).

    Vocabulary (SpecText.v): [ordinary] text, its visible characters [ink], the
    contexts [shown_in_line] (inside a paragraph of ordinary text between ordinary
    paragraphs) and [shown_as_block] (between ordinary paragraphs).  [escaped] and
    the tags are in Markdown.v, [decode] (how a browser reads character
    references) in Decode.v. *)
From Coq Require Import Ascii String.
From Verif Require Import Strings StringsFacts Token Iter Lexer Parser SanitizeFacts LexMono
  Markdown MarkdownFacts MarkdownSound Decode DecodeFacts SpecText TextFacts.
Open Scope list_scope.

(** ** C08: plain text becomes one paragraph *)
Theorem C08_paragraph_partial : forall named s, html5 named -> ordinary s = true -> has_ink s = true ->
  exists body, renders s (lit "<p>" ++ body ++ lit "</p>" ++ [c_nl]) /\ ~ In c_lt body /\ decode named body = ink s.
Proof.
  intros named s H O I. exists (txt s). split; [now apply ordinary_paragraph|]. split; [apply escaped_no_lt | now apply decode_txt].
Qed.
Print Assumptions C08_paragraph_partial.
Theorem C08_blank_document_partial : forall s, ordinary s = true -> has_ink s = false -> renders s [c_nl].
Proof. exact ordinary_blank. Qed.
Print Assumptions C08_blank_document_partial.
Definition sample : str := lit "It's 3 o'clock (""sharp"") & so, 4.5" ++ [c_nl] ++ lit "times {more} = 7] okay!".
Example C08_ex : ordinary sample = true /\ has_ink sample = true /\
  ink (lit "ab c" ++ [c_nl] ++ lit "d") = lit "abcd" /\ html5 html5_min.
Proof. repeat split; try reflexivity. exact html5_min_ok. Qed.
(** Missing: text with characters that have a meaning elsewhere.  A hyphen inside a
    word starts a list, whatever the word: *)
Theorem C08_hyphen_refuted : forall a b, ordinary a = true -> has_ink a = true -> starts_in [c_nl] (rev a) = false ->
  ordinary b = true -> has_ink b = true -> ~ In c_nl b -> starts_in [c_sp] b = false ->
  renders (a ++ lit "-" ++ b)
    (lit "<p>" ++ txt a ++ lit "<ul>" ++ [c_nl] ++ lit "<li>" ++ [c_nl] ++ lit "<p>" ++ txt b ++ lit "</p>" ++ [c_nl]
     ++ lit "</li>" ++ [c_nl] ++ lit "</p>" ++ [c_nl] ++ lit "</ul>" ++ [c_nl]).
Proof.
  intros a b OA IA EA OB IB NB SB.
  assert (D : forall b0, doc false b0 false 0 LNone (lit "-" ++ b)
            ((lit "<ul>" ++ [c_nl]) ++ ul_li (fin (p_tag (txt b)) (mkF false 0 [] [])) ++ close_p b0) (mkF false 0 (lit "</ul>") [])).
  { intros b0. change (lit "-" ++ b) with (c_minus :: b). rewrite <- (app_nil_r (c_minus :: b)).
    assert (ST : forall c, In c (c_tab :: dashes) -> mem_char c markup_chars = true) by (intros c; vm_compute; intuition (subst; reflexivity)).
    apply (d_ul false b0 false 0 LNone c_minus b [] (p_tag (txt b)) (mkF false 0 [] [])); auto.
    - now left.
    - now left.
    - destruct b as [|x b]; [reflexivity|]. cbn [starts_in]. destruct (mem_char x (c_tab :: dashes)) eqn:E; [exfalso|auto].
      apply mem_char_iff, ST, mem_char_iff in E. now apply (ordinary_free (x :: b) x E OB); left.
    - intros ck mk y T ->. destruct ck; [destruct T as [->| ->]|rewrite T in SB]; discriminate SB.
    - split; [|split]; intros r'; discriminate.
    - assert (T : trim_start_by (ceq c_sp) b = b).
      { destruct b as [|x b]; [reflexivity|]. cbn [starts_in mem_char existsb] in SB. rewrite orb_false_r in SB.
        unfold trim_start_by. cbn [drop_while]. unfold ceq in *. now rewrite N.eqb_sym, SB. }
      rewrite T. now apply doc_para.
    - apply (d_end false b0 false 0 LUl). }
  assert (OB' : ord_before (lit "-" ++ b) a = true).
  { apply ord_ext; auto; discriminate. }
  pose proof (ord_open false false (lit "-" ++ b) _ _ _ _ eq_refl (D true) (D false) (length a) a (le_n _) OB') as K.
  rewrite IA in K. rewrite fin_p_tag in K. unfold ul_li in K. rewrite pad_code_txt in K.
  apply displays_renders. eexists. eexists. split; [exact K|].
  unfold fin. cbn [f_quote f_close f_code f_notes times repeat concat notes_html]. unfold p_tag. cbn [close_p].
  rewrite !app_nil_l, !app_nil_r, with_nl_ul, <- !app_assoc. reflexivity.
Qed.
Print Assumptions C08_hyphen_refuted.
Example C08_hyphen_refuted_ex : ordinary (lit "It is well") = true /\ ordinary (lit "known that.") = true.
Proof. now split. Qed.

(** ** C09: words stay separated *)

(** Refuted for every text: a space or a line break between two words makes no
    difference to the output. *)
Lemma has_ink_app a b : has_ink (a ++ b) = has_ink a || has_ink b.
Proof. apply existsb_app. Qed.
Theorem C09_words_refuted : forall a x b h, In x [c_sp; c_nl] ->
  ordinary (a ++ [x] ++ b) = true -> ordinary (a ++ b) = true ->
  (renders (a ++ [x] ++ b) h <-> renders (a ++ b) h).
Proof.
  intros a x b h X O1 O2.
  assert (E : has_ink (a ++ [x] ++ b) = has_ink (a ++ b) /\ txt (a ++ [x] ++ b) = txt (a ++ b)).
  { rewrite !has_ink_app, !txt_app. destruct X as [<-|[<-|[]]]; now split. }
  destruct E as [E1 E2]. assert (R : exists o, renders (a ++ [x] ++ b) o /\ renders (a ++ b) o).
  { destruct (has_ink (a ++ b)) eqn:I.
    - exists (p_tag (txt (a ++ b))). split; [rewrite <- E2|]; now apply ordinary_paragraph.
    - exists [c_nl]. split; apply ordinary_blank; auto. }
  destruct R as (o & R1 & R2). split; intros R.
  - now rewrite (renders_unique _ _ _ R R1).
  - now rewrite (renders_unique _ _ _ R R2).
Qed.
Print Assumptions C09_words_refuted.
Example C09_words_refuted_ex : ordinary (lit "hello" ++ [c_sp] ++ lit "world") = true /\ ordinary (lit "helloworld") = true /\
  renders (lit "hello world") (lit "<p>helloworld</p>" ++ [c_nl]).
Proof. split; [reflexivity|]. split; [reflexivity|]. exact (ordinary_paragraph (lit "hello world") eq_refl eq_refl). Qed.

(** ** C10: blank lines separate paragraphs *)
Theorem C10_paragraphs_partial : forall p qs h hs, paragraphs (p :: map snd qs) ->
  renders p h -> Forall2 (fun q h => renders (snd q) h) qs hs ->
  renders (p ++ gaps qs) (h ++ concat hs).
Proof.
  intros p qs h hs F R RS. pose proof (gaps_renders p qs F) as G. inversion F as [|? ? P F']; subst.
  assert (U : forall q g, paragraph q = true -> renders q g -> g = p_tag (txt q)).
  { intros q g Q Rq. apply paragraph_parts in Q as (O & I & _). eapply renders_unique; eauto. now apply ordinary_paragraph. }
  apply U in R; [subst h|exact P].
  assert (E : concat hs = p_tags (map snd qs)).
  { clear G F. induction RS as [|q g qs hs Rq RS IH]; [reflexivity|]. cbn [map] in F'. inversion F'; subst.
    apply U in Rq; [subst g|assumption]. unfold p_tags. cbn [map concat]. fold (p_tags (map snd qs)). now rewrite <- IH. }
  now rewrite E.
Qed.
Print Assumptions C10_paragraphs_partial.
Example C10_ex : paragraphs (sample :: map snd [(0, lit "Second one."); (3, lit "third & last")]) /\
  gaps [(0, lit "b"); (1, lit "c")] = [c_nl; c_nl] ++ lit "b" ++ [c_nl; c_nl; c_nl] ++ lit "c".
Proof. split; [|reflexivity]. repeat constructor. Qed.
(** The same for paragraphs with any number of inline constructs (see [span]). *)
Theorem C10_inline_partial : forall p h qs, para p h -> paras (map snd qs) ->
  renders (p ++ gaps (map (fun q => (fst q, fst (snd q))) qs)) (p_tag h ++ concat (map (fun q => p_tag (snd q)) (map snd qs))) /\
  renders p (p_tag h) /\ Forall (fun q => renders (fst q) (p_tag (snd q))) (map snd qs).
Proof.
  intros p h qs P F. split; [exact (pgaps_renders p h qs P F)|].
  assert (R : forall p h, para p h -> renders p (p_tag h)).
  { clear. intros p h P. pose proof (pgaps_renders p h [] P (Forall_nil _)) as R. unfold pgaps, gaps, ptags in R.
    cbn [map concat] in R. now rewrite !app_nil_r in R. }
  split; [now apply R|]. eapply Forall_impl; [|exact F]. intros [x y] K. now apply R.
Qed.
Print Assumptions C10_inline_partial.
Example C10_inline_ex : para (lit "a *b* ~~c~~ d") (lit "a<em>b</em><strike>c</strike>d").
Proof.
  split; [|split; reflexivity].
  apply (in_span [] (lit "a ") (lit "*b*") (lit " ~~c~~ d") (lit "<em>b</em>") (lit "<strike>c</strike>d")); try reflexivity.
  - apply (sp_em c_star (lit "b")); [now left| |reflexivity]. split; [easy|]. split; vm_compute; intuition discriminate.
  - apply (in_span [] (lit " ") (lit "~~c~~") (lit " d") (lit "<strike>c</strike>") (lit "d")); try reflexivity.
    + apply (sp_strike (lit "c")); [easy|]. vm_compute; intuition discriminate.
    + apply (in_end (lit " d")). reflexivity.
Qed.
(** Missing: blank lines that are not empty.  With a space in it, or with Windows
    line ends, a blank line separates nothing: *)
Theorem C10_blank_line_refuted : forall a w b, In w [[c_nl; c_sp; c_nl]; [c_cr; c_nl; c_cr; c_nl]] ->
  ordinary (a ++ w ++ b) = true -> has_ink a = true ->
  renders (a ++ w ++ b) (p_tag (txt a ++ txt b)).
Proof.
  intros a w b W O I. assert (E : txt (a ++ w ++ b) = txt a ++ txt b).
  { rewrite !txt_app. destruct W as [<-|[<-|[]]]; reflexivity. }
  rewrite <- E. apply ordinary_paragraph; [exact O|]. now rewrite has_ink_app, I.
Qed.
Print Assumptions C10_blank_line_refuted.
Example C10_blank_line_refuted_ex :
  ordinary (lit "one" ++ [c_nl; c_sp; c_nl] ++ lit "two") = true /\
  ordinary (lit "one" ++ [c_cr; c_nl; c_cr; c_nl] ++ lit "two") = true.
Proof. now split. Qed.

(** ** C11: ATX headings *)
Theorem C11_heading_partial : forall n t e, 1 <= n <= 6 -> heading_ordinary t -> heading_end e ->
  shown_as_block renders (heading_src n t e) (h_tag n (txt t)) /\
  shown_as_line renders (heading_src n t e) (h_tag n (txt t)).
Proof.
  intros n t e B O E. pose proof (heading_ordinary_block n t e B O E) as L.
  destruct (heading_src_head n t e (proj1 B)) as [H1 H2].
  split; [apply line_block_block | apply line_block_line]; auto.
Qed.
Print Assumptions C11_heading_partial.
Example C11_ex : heading_ordinary (lit "Some (good) title!") /\ heading_end (lit "  ") /\ heading_end (lit "  ### ") /\
  heading_src 2 (lit "Title") (lit " ##") = lit "## Title ##" /\ h_tag 2 (lit "T") = lit "<h2>T</h2>" ++ [c_nl].
Proof.
  split.
  { split; [reflexivity|]. do 2 (split; [vm_compute; intuition discriminate|]). now exists (lit "Some (good) title"), c_bang. }
  split; [|split; [|now split]].
  - apply he_blanks. intros x [<-|[<-|[]]]; now left.
  - apply (he_hashes [c_sp] 3 [c_sp]); try lia; intros x [<-|[]]; now left.
Qed.
(** The text, decoded: its visible characters. *)
Theorem C11_heading_text : forall named t, html5 named -> ordinary t = true -> decode named (txt t) = ink t.
Proof. intros. now apply decode_txt. Qed.
Print Assumptions C11_heading_text.
(** Missing: the spaces between the words, which are lost for every text. *)
Theorem C11_spaces_refuted : forall n t t' h, 1 <= n <= 6 ->
  heading_ordinary (t ++ [c_sp] ++ t') -> heading_ordinary (t ++ t') ->
  (renders (heading_src n (t ++ [c_sp] ++ t') []) h <-> renders (heading_src n (t ++ t') []) h).
Proof.
  intros n t t' h B O1 O2. assert (E : heading_end []) by (apply he_blanks; intros x []).
  destruct (C11_heading_partial n _ [] B O1 E) as [R1 _]. destruct (C11_heading_partial n _ [] B O2 E) as [R2 _].
  specialize (R1 [] [] (Forall_nil _) (Forall_nil _)). specialize (R2 [] [] (Forall_nil _) (Forall_nil _)).
  unfold before, after in R1, R2. cbn [map concat] in R1, R2. rewrite app_nil_l, app_nil_r in R1, R2.
  assert (X : txt (t ++ [c_sp] ++ t') = txt (t ++ t')) by now rewrite !txt_app.
  rewrite X in R1.
  split; intros R.
  - now rewrite (renders_unique _ _ _ R R1).
  - now rewrite (renders_unique _ _ _ R R2).
Qed.
Print Assumptions C11_spaces_refuted.

(** ** C12: more than six hashes *)
Theorem C12_seven_hashes : forall n, 7 <= n -> shown_in_line renders [c_hash] (crep n c_hash) (crep n c_hash).
Proof.
  intros n B. apply line_shown; [destruct n; [lia|easy] | destruct n; [lia|reflexivity]|].
  intros b qs T Q N. apply p_hashes; auto with arith; [lia|].
  apply (trail_look _ [c_hash] b qs T N); [|vm_compute; intuition discriminate]. intros x [<-|[]]. vm_compute. tauto.
Qed.
Print Assumptions C12_seven_hashes.
Example C12_ex : paragraphs [lit "before"] /\ trail (lit " not a heading") = true /\ lead [] = true /\
  renders (lit "####### x") (lit "<p>#######x</p>" ++ [c_nl]).
Proof.
  split; [repeat constructor|]. split; [reflexivity|]. split; [reflexivity|].
  exact (C12_seven_hashes 7 (le_n _) [] [] (lit " x") [] (Forall_nil _) (Forall_nil _) eq_refl eq_refl eq_refl).
Qed.

(** ** C13: heading text survives *)

(** Refuted for every heading whose text contains a code span: the heading is empty. *)
Theorem C13_code_refuted : forall n k body e, 1 <= n <= 6 -> 1 <= k -> k <> 3 ->
  body <> [] -> ~ In c_tick body -> ~ In c_nl body -> ~ In c_hash body -> heading_end e ->
  shown_as_block renders (heading_src n (crep k c_tick ++ body ++ crep k c_tick) e) (h_tag n []).
Proof.
  intros n k body e B K K3 NE NT NL NH E.
  destruct (heading_src_head n (crep k c_tick ++ body ++ crep k c_tick) e (proj1 B)) as [H1 H2].
  apply line_block_block; auto.
  assert (CR : forall c, In c (crep k c_tick) -> c = c_tick) by (intros c I; now apply repeat_spec in I).
  assert (CS : code_span (crep k c_tick ++ body ++ crep k c_tick) (strip_spaces body)).
  { apply cs; auto.
    - destruct body as [|c body]; [easy|]. cbn [starts_with]. rewrite andb_true_r. apply ceq_neq. intros <-. apply NT. now left.
    - destruct (ends_with [c_tick] body) eqn:X; [|reflexivity]. apply ends_with_iff in X as [x ->]. exfalso. apply NT.
      apply in_or_app. right. now left.
    - intros (x & y & ->). destruct k; [lia|]. apply NT. rewrite !in_app_iff. right. left. now left. }
  apply (heading_code_block n _ e (lit "<pre><code>" ++ escaped (strip_spaces body)) (mkF true 0 [] [])); auto.
  - unfold no_nl. rewrite !in_app_iff. intros [I|[I|I]]; [apply CR in I; discriminate I|easy|apply CR in I; discriminate I].
  - rewrite !in_app_iff. intros [I|[I|I]]; [apply CR in I; discriminate I|easy|apply CR in I; discriminate I].
  - exists (crep k c_tick ++ body ++ crep (k - 1) c_tick), c_tick. split; [|reflexivity].
    rewrite <- !app_assoc. f_equal. f_equal. destruct k as [|k]; [lia|]. cbn [Nat.sub]. rewrite Nat.sub_0_r.
    clear. unfold crep. induction k as [|k IH]; [reflexivity|]. cbn [repeat app] in *. now rewrite <- IH.
  - rewrite <- (app_nil_r (crep k c_tick ++ body ++ crep k c_tick)). rewrite <- (app_nil_r (escaped _)).
    apply (d_code true false false 0 _ _ [] _ _ CS). apply (d_end true false true 0 LNone).
Qed.
Print Assumptions C13_code_refuted.
Example C13_code_refuted_ex : ~ In c_tick (lit "unsafe code") /\ renders (lit "# `x`") (lit "<h1></h1>" ++ [c_nl]).
Proof.
  split; [vm_compute; intuition discriminate|].
  refine (C13_code_refuted 1 1 (lit "x") [] _ _ _ _ _ _ _ (he_blanks [] _) [] [] (Forall_nil _) (Forall_nil _)); try lia; try easy;
    vm_compute; intuition discriminate.
Qed.
(** Refuted for every heading with a custom id: its text is replaced by the id. *)
Theorem C13_custom_id_refuted : forall n a i, 1 <= n <= 6 -> ~ In c_nl a -> ~ In c_lbrace a -> heading_ordinary i ->
  shown_as_block renders (crep n c_hash ++ [c_sp] ++ a ++ lit "{#" ++ i ++ lit "}") (h_tag n (txt i)).
Proof.
  intros n a i B NA LA O. apply line_block_block; [destruct n; [lia|easy]|destruct n; [lia|reflexivity]|].
  now apply heading_id_block.
Qed.
Print Assumptions C13_custom_id_refuted.
Example C13_custom_id_refuted_ex : heading_ordinary (lit "intro") /\ ~ In c_lbrace (lit "All this is *lost* ").
Proof.
  split; [|vm_compute; intuition discriminate]. split; [reflexivity|]. do 2 (split; [vm_compute; intuition discriminate|]).
  now exists (lit "intr"), 111%N.
Qed.
(** True with any other inline constructs (emphasis, links, ..., see [span]) among
    ordinary text, any number of them. *)
Theorem C13_heading_inline_partial : forall n t h e, inline t h -> 1 <= n <= 6 -> ~ In c_nl t -> ~ In c_hash t ->
  ends_visible t -> heading_end e ->
  shown_as_block renders (heading_src n t e) (h_tag n h) /\ shown_as_line renders (heading_src n t e) (h_tag n h).
Proof.
  intros n t h e I N NL NH V E. destruct (heading_src_head n t e (proj1 N)) as [H1 H2].
  pose proof (inline_heading n t h e I N NL NH V E) as L.
  split; [apply line_block_block | apply line_block_line]; auto.
Qed.
Print Assumptions C13_heading_inline_partial.
Example C13_heading_inline_ex : span [] (lit "**so & so**") (lit "<strong>so &amp; so</strong>").
Proof. apply (sp_strong c_star (lit "so & so")); [now left| |reflexivity]. split; [easy|]. split; vm_compute; intuition discriminate. Qed.

(** ** C14: emphasis

    ([unmarked t]: not empty, no asterisk, no underscore.  With a blank or line break
    right behind the opening marks it is a list item or a thematic break.) *)
Theorem C14_emphasis : forall named d t, html5 named -> In d [c_star; c_under] -> unmarked t ->
  starts_in [c_tab; c_sp; c_nl] t = false ->
  exists body, ~ In c_lt body /\
    (~ In c_pipe t -> ~ In c_tilde t -> ~ In c_bslash t -> decode named body = t) /\
    shown_in_line renders [] ([d] ++ t ++ [d]) (lit "<em>" ++ body ++ lit "</em>") /\
    shown_in_line renders [] ([d; d] ++ t ++ [d; d]) (lit "<strong>" ++ body ++ lit "</strong>") /\
    shown_in_line renders [] ([d; d; d] ++ t ++ [d; d; d]) (lit "<strong><em>" ++ body ++ lit "</em></strong>").
Proof.
  intros named d t H D U S0. exists (escaped t). split; [apply escaped_no_lt|]. split; [now apply decode_escaped|].
  assert (S1 : starts_in [c_tab; c_nl] t = false) by (eapply starts_in_incl; [|exact S0]; intros x; cbn; tauto).
  split; [|split]; apply span_shown; [now apply sp_em | now apply sp_strong | now apply sp_both].
Qed.
Print Assumptions C14_emphasis.
Example C14_ex : unmarked (lit "some <b> & 'text' - here") /\
  lead (lit "See ") = true /\ trail (lit ", okay.") = true.
Proof. split; [split; [easy|split; vm_compute; intuition discriminate]|now split]. Qed.
(** Opening and closing marks need not even be the same characters. *)
Theorem C14_mixed_marks : forall d d' t, In d [c_star; c_under] -> In d' [c_star; c_under] -> unmarked t ->
  starts_in [c_tab; c_sp; c_nl] t = false ->
  shown_in_line renders [] ([d] ++ t ++ [d']) (em_tag t).
Proof.
  intros d d' t D D' U S0. apply line_shown.
  - easy.
  - destruct D as [<-|[<-|[]]]; reflexivity.
  - intros b qs _ _ _. apply unmarked_free in U as [U1 U2]. now apply p_em.
Qed.
Print Assumptions C14_mixed_marks.
(** Emphasis keeps the spaces between its words (C09). *)
Theorem C09_emphasis_partial : forall d t t', In d [c_star; c_under] -> unmarked (t ++ [c_sp] ++ t') ->
  starts_in [c_tab; c_sp; c_nl] (t ++ [c_sp] ++ t') = false ->
  shown_in_line renders [] ([d] ++ (t ++ [c_sp] ++ t') ++ [d]) (lit "<em>" ++ (escaped t ++ [c_sp] ++ escaped t') ++ lit "</em>").
Proof.
  intros d t t' D U S0. pose proof (span_shown _ _ _ (sp_em d (t ++ [c_sp] ++ t') D U S0)) as R.
  unfold em_tag in R. rewrite !escaped_app in R. exact R.
Qed.
Print Assumptions C09_emphasis_partial.
Example C09_emphasis_ex : unmarked (lit "hello" ++ [c_sp] ++ lit "world").
Proof. split; [easy|split; vm_compute; intuition discriminate]. Qed.

(** ** C15: strikethrough *)
Theorem C15_strike : forall named t, html5 named -> t <> [] -> ~ In c_tilde t ->
  exists body, ~ In c_lt body /\ (~ In c_pipe t -> ~ In c_bslash t -> decode named body = t) /\
    shown_in_line renders [] (lit "~~" ++ t ++ lit "~~") (lit "<strike>" ++ body ++ lit "</strike>").
Proof.
  intros named t H NE NT. exists (escaped t). split; [apply escaped_no_lt|]. split; [intros; now apply decode_escaped|].
  apply span_shown. now apply sp_strike.
Qed.
Print Assumptions C15_strike.
Example C15_ex : ~ In c_tilde (lit "old * text").
Proof. vm_compute; intuition discriminate. Qed.
(** Unmatched tildes strike nothing: one, three or more of them; two that are
    followed by other than two; two that are never followed by any. *)
Theorem C15_tildes_partial : forall n, 1 <= n -> n <> 2 ->
  shown_in_line renders [] (crep n c_tilde) (times n (lit "&tilde;")).
Proof.
  intros n B N. assert (E : times n (lit "&tilde;") = escaped (crep n c_tilde)).
  { clear. unfold times, escaped, crep. induction n as [|n IH]; [reflexivity|]. cbn [repeat concat flat_map]. now rewrite <- IH. }
  rewrite E. apply span_shown. now apply sp_tildes.
Qed.
Print Assumptions C15_tildes_partial.
Theorem C15_unmatched_partial : forall t n, t <> [] -> ~ In c_tilde t -> 1 <= n -> n <> 2 -> ~ infix (lit "[^") t \/ ~ In c_rbrk t ->
  shown_in_line renders [] (lit "~~" ++ t ++ crep n c_tilde) (lit "&tilde;&tilde;" ++ escaped t ++ times n (lit "&tilde;")).
Proof.
  intros t n NE NT B N F.
  assert (E : times n (lit "&tilde;") = escaped (crep n c_tilde)).
  { clear. unfold times, escaped, crep. induction n as [|n IH]; [reflexivity|]. cbn [repeat concat flat_map]. now rewrite <- IH. }
  rewrite E. change (lit "&tilde;&tilde;") with (escaped (lit "~~")). rewrite <- !escaped_app.
  apply line_shown; [easy|reflexivity|]. intros b qs T Q NO. apply p_no_strike; auto; [|lia|].
  - apply (trail_look _ [] b qs T NO); [|vm_compute; intuition discriminate]. intros x [<-|[]]. vm_compute. tauto.
  - destruct n as [|n]; [lia|]. split; [|split].
    + now exists c_tilde, (c_tilde :: t ++ crep (S n) c_tilde).
    + right. exists (lit "~~" ++ t ++ crep n c_tilde), c_tilde. split; [|reflexivity]. rewrite <- !app_assoc. f_equal. f_equal.
      clear. unfold crep. induction n as [|n IH]; [reflexivity|]. cbn [repeat app] in *. now rewrite <- IH.
    + assert (CR : forall c, In c (crep (S n) c_tilde) -> c = c_tilde) by (intros c I; now apply repeat_spec in I).
      remember (crep (S n) c_tilde) as u eqn:EU. clear EU.
      destruct F as [F|F]; [left|right].
      * intros (x & y & K). change (lit "[^" ++ y) with ([c_lbrk; c_caret] ++ y) in K.
        apply F. destruct x as [|x1 [|x2 x]]; try (discriminate K). cbn [app lit] in K.
        injection K as _ _ K. apply app_eq_app in K as (l & [[K1 K2]|[K1 K2]]).
        -- destruct l as [|l1 [|l2 l]]; cbn [app] in K2.
           ++ exfalso. assert (X : In c_lbrk u) by (rewrite <- K2; now left). apply CR in X. discriminate X.
           ++ injection K2 as _ K2. exfalso. assert (X : In c_caret u) by (rewrite <- K2; now left). apply CR in X. discriminate X.
           ++ injection K2 as E1 E2 K2. exists x, l. rewrite K1, <- E1, <- E2. reflexivity.
        -- exfalso. assert (X : In c_lbrk u) by (rewrite K2; apply in_or_app; right; now left). apply CR in X. discriminate X.
      * rewrite !in_app_iff. intros [I|[I|I]]; [|easy|apply CR in I; discriminate I]. revert I. vm_compute. intuition discriminate.
Qed.
Print Assumptions C15_unmatched_partial.
Theorem C15_unclosed_partial : forall t ps a, t <> [] -> ~ In c_tilde t -> ~ In c_nl t -> ~ infix (lit "[^") t \/ ~ In c_rbrk t ->
  paragraphs ps -> lead a = true ->
  renders (before ps ++ a ++ lit "~~" ++ t) (p_tags ps ++ p_tag (txt a ++ lit "&tilde;&tilde;" ++ escaped t)).
Proof.
  intros t ps a NE NT NL F P A. change (lit "&tilde;&tilde;" ++ escaped t) with (escaped (lit "~~" ++ t)).
  apply (line_shown_end (lit "~~" ++ t) (escaped (lit "~~" ++ t))); auto; [easy|].
  pose proof (p_no_strike false [] t 0) as K. cbn [crep repeat] in K. rewrite app_nil_r in K. apply K; auto.
  split; [|split].
  - now exists c_tilde, (c_tilde :: t).
  - left. rewrite in_app_iff. intros [I|I]; [|easy]. revert I. vm_compute. intuition discriminate.
  - destruct F as [F|F]; [left|right].
    + intros I. apply F. change (lit "~~" ++ t) with (c_tilde :: c_tilde :: t) in I.
      destruct I as (x & y & K0). destruct x as [|x1 [|x2 x]]; try (discriminate K0). injection K0 as _ _ K0. now exists x, y.
    + rewrite in_app_iff. intros [I|I]; [|easy]. revert I. vm_compute. intuition discriminate.
Qed.
Print Assumptions C15_unclosed_partial.
(** The full statement, that they are shown literally, is false: what is shown is
    another character. *)
Theorem C15_tilde_refuted : forall named n, html5 named -> 1 <= n -> n <> 2 ->
  exists body, shown_in_line renders [] (crep n c_tilde) body /\ decode named body = crep n 732%N.
Proof.
  intros named n H B N. exists (escaped (crep n c_tilde)). split; [apply span_shown; now apply sp_tildes|].
  clear B N. unfold escaped, crep. induction n as [|n IH]; [reflexivity|]. cbn [repeat flat_map].
  rewrite decode_esc by exact H. now rewrite IH.
Qed.
Print Assumptions C15_tilde_refuted.

(** ** C16: inline code is verbatim

    ([strip_spaces]: a body that starts and ends with a space loses its outer spaces.
    The element is only closed at the end of the document.) *)
Definition code_body (n : nat) (body : str) : Prop :=
  1 <= n /\ n <> 3 /\ body <> [] /\ starts_with [c_tick] body = false /\ ends_with [c_tick] body = false /\
  ~ infix (crep n c_tick) body.
Lemma code_body_span n body : code_body n body -> code_span (crep n c_tick ++ body ++ crep n c_tick) (strip_spaces body).
Proof. intros (H1 & H2 & H3 & H4 & H5 & H6). now apply cs. Qed.
Theorem C16_code_partial : forall named n body ps a b qs, html5 named -> code_body n body ->
  paragraphs ps -> paragraphs qs -> lead a = true -> trail b = true -> has_ink a = true ->
  exists t, ~ In c_lt t /\
    (~ In c_pipe body -> ~ In c_tilde body -> ~ In c_bslash body -> decode named t = strip_spaces body) /\
    renders (before ps ++ (a ++ (crep n c_tick ++ body ++ crep n c_tick) ++ b) ++ after qs)
      (p_tags ps ++ p_tag (txt a ++ lit "<pre><code>" ++ t ++ txt b) ++ p_tags qs ++ lit "</code></pre>").
Proof.
  intros named n body ps a b qs H C P Q A B I. exists (escaped (strip_spaces body)).
  split; [apply escaped_no_lt|]. split.
  - intros N1 N2 N3. assert (X : forall c, In c (strip_spaces body) -> In c body).
    { intros c. unfold strip_spaces. destruct (_ && _); [|auto]. intros K. eapply infix_In; [|exact K].
      eapply infix_trans; [apply infix_trim_end_by | apply infix_trim_start_by]. }
    apply decode_escaped; auto.
  - pose proof (code_line _ _ ps a b qs (code_body_span n body C) P Q A B) as K. rewrite I in K.
    match goal with |- renders _ ?o => match type of K with renders _ ?o' => assert (E : o' = o) end end.
    { unfold p_tag. rewrite <- !app_assoc. rewrite !(app_assoc _ _ (lit "</code></pre>")). f_equal.
      destruct (p_tags_ends qs) as [E|E].
      - rewrite E, !app_nil_r. rewrite !(app_assoc _ _ [c_nl]). now rewrite with_nl_ends.
      - rewrite !(app_assoc _ _ (p_tags qs)). now apply with_nl_app. }
    now rewrite E in K.
Qed.
Print Assumptions C16_code_partial.
Example C16_ex : code_body 2 (lit "a `*b*` <c>") /\ strip_spaces (lit " ` ") = lit "`" /\ lead (lit "Use ") = true /\ has_ink (lit "Use ") = true.
Proof.
  split; [|now split]. repeat split; try lia; try easy. intros I. apply contains_iff in I. discriminate I.
Qed.
Theorem C16_code_block_partial : forall n body ps qs, code_body n body -> paragraphs ps -> paragraphs qs ->
  renders (before ps ++ (crep n c_tick ++ body ++ crep n c_tick) ++ after qs)
    (with_nl (p_tags ps ++ lit "<pre><code>" ++ escaped (strip_spaces body) ++ p_tags qs) ++ lit "</code></pre>").
Proof.
  intros n body ps qs C P Q. pose proof (code_line _ _ ps [] [] qs (code_body_span n body C) P Q eq_refl eq_refl) as K.
  cbn [has_ink existsb] in K. rewrite app_nil_l, (app_nil_r (crep n c_tick ++ _)) in K. rewrite app_nil_r in K.
  rewrite <- (app_assoc (lit "<pre><code>")) in K. exact K.
Qed.
Print Assumptions C16_code_block_partial.
(** Missing: bars and tildes (see C06), and backslashes, which are lost whatever the code is. *)
Theorem C16_backslash_refuted : forall x y, x <> [] -> y <> [] ->
  ~ In c_tick (x ++ y) -> ~ In c_sp (x ++ y) -> forall h,
  (renders (lit "`" ++ (x ++ [c_bslash] ++ y) ++ lit "`") h <-> renders (lit "`" ++ (x ++ y) ++ lit "`") h).
Proof.
  intros x y NX NY NT NS h.
  assert (G : forall z, (forall c, In c z -> In c (x ++ y) \/ c = c_bslash) -> z <> [] ->
    code_body 1 z /\ strip_spaces z = z).
  { intros z Z NE.
    assert (T : ~ In c_tick z) by (intros I; apply Z in I as [I|I]; [easy|discriminate I]).
    assert (S0 : ~ In c_sp z) by (intros I; apply Z in I as [I|I]; [easy|discriminate I]).
    split.
    - repeat split; try lia; auto.
      + destruct z as [|c z]; [easy|]. cbn [starts_with]. rewrite andb_true_r. apply ceq_neq. intros <-. apply T. now left.
      + destruct (ends_with [c_tick] z) eqn:X; [|reflexivity]. apply ends_with_iff in X as [w ->]. exfalso. apply T.
        apply in_or_app. right. now left.
      + intros I. apply T. eapply infix_In; [exact I | now left].
    - unfold strip_spaces. destruct z as [|c z]; [easy|]. cbn [starts_with].
      assert (E : ceq c_sp c = false) by (apply ceq_neq; intros <-; apply S0; now left). now rewrite E. }
  destruct (G (x ++ [c_bslash] ++ y)) as [C1 E1].
  { intros c. rewrite !in_app_iff. cbn. intuition. }
  { destruct x; easy. }
  destruct (G (x ++ y)) as [C2 E2].
  { intros c. rewrite !in_app_iff. intuition. }
  { destruct x; easy. }
  pose proof (C16_code_block_partial 1 _ [] [] C1 (Forall_nil _) (Forall_nil _)) as R1.
  pose proof (C16_code_block_partial 1 _ [] [] C2 (Forall_nil _) (Forall_nil _)) as R2.
  rewrite E1 in R1. rewrite E2 in R2. unfold before, after in R1, R2. cbn [map concat] in R1, R2.
  rewrite app_nil_l, app_nil_r in R1, R2.
  assert (X : escaped (x ++ [c_bslash] ++ y) = escaped (x ++ y)) by now rewrite !escaped_app.
  rewrite X in R1. split; intros R.
  - now rewrite (renders_unique _ _ _ R R1).
  - now rewrite (renders_unique _ _ _ R R2).
Qed.
Print Assumptions C16_backslash_refuted.

(** ** C17: fenced code blocks are rendered

    Refuted for every fenced code block: nothing is shown. *)
Theorem C17_fence_refuted : forall lang t, ~ In c_nl lang -> ~ In c_tick lang -> ~ In c_tick t ->
  shown_as_block renders (lit "```" ++ lang ++ [c_nl] ++ t ++ lit "```") [].
Proof.
  intros lang t N1 N2 N3. apply block_shown; [easy|reflexivity|]. intros qs Q.
  apply (d_fence false false false 0 lang t (after qs)); auto.
  - destruct (after_head qs) as [->|[r' ->]]; reflexivity.
  - exact (after_doc false false qs Q false).
Qed.
Print Assumptions C17_fence_refuted.
Example C17_ex : ~ In c_tick (lit "let x = 1;" ++ [c_nl]) /\
  renders (lit "```rust" ++ [c_nl] ++ lit "let x = 1;" ++ [c_nl] ++ lit "```") [c_nl].
Proof.
  split; [vm_compute; intuition discriminate|].
  refine (C17_fence_refuted (lit "rust") (lit "let x = 1;" ++ [c_nl]) _ _ _ [] [] (Forall_nil _) (Forall_nil _));
    vm_compute; intuition discriminate.
Qed.
(** Indented code is shown. *)
Theorem C17_indented_partial : forall ws t ps qs, In ws [[c_tab]; lit "    "; lit "  " ++ [c_tab]] ->
  ~ In c_nl t -> ~ In c_hash t -> starts_in blank_chars t = false -> t <> [] -> paragraphs ps -> paragraphs qs ->
  exists o, renders (before ps ++ (ws ++ t ++ [c_nl]) ++ after qs) (p_tags ps ++ lit "<pre><code>" ++ escaped t ++ [c_nl] ++ o).
Proof.
  intros ws t ps qs W NL NH S0 NE P Q.
  assert (D : doc false false false 0 LNone ((ws ++ t ++ [c_nl]) ++ after qs) (lit "<pre><code>" ++ escaped (t ++ [c_nl]) ++ p_tags qs) (mkF true 0 [] [])).
  { rewrite <- !app_assoc. rewrite (app_assoc t).
    apply (d_indented false false false 0 ws t (after qs)); auto. exact (after_doc false true qs Q false). }
  apply (before_doc false false ps) in D; [|exact P|].
  - apply doc_renders_code in D. rewrite escaped_app in D. change (escaped [c_nl]) with [c_nl] in D.
    assert (E : with_nl (p_tags ps ++ lit "<pre><code>" ++ (escaped t ++ [c_nl]) ++ p_tags qs)
                = p_tags ps ++ lit "<pre><code>" ++ escaped t ++ [c_nl] ++ p_tags qs).
    { destruct (p_tags_ends qs) as [E|E].
      - rewrite E, !app_nil_r, !app_assoc. apply with_nl_ends.
      - rewrite !app_assoc. now apply with_nl_app. }
    rewrite E in D. rewrite <- !(app_assoc _ _ (lit "</code></pre>")) in D. eexists. exact D.
  - destruct W as [<-|[<-|[<-|[]]]]; reflexivity.
Qed.
Print Assumptions C17_indented_partial.
Example C17_indented_ex : starts_in blank_chars (lit "let x = *y;") = false /\ ~ In c_hash (lit "let x = *y;").
Proof. split; [reflexivity|vm_compute; intuition discriminate]. Qed.

(** ** C31: backslash escapes *)
Definition punctuation : list char := lit "!""#$%&'()*+,-./:;<=>?@[]^_`{|}~".
Theorem C31_escape_partial : forall c, In c punctuation ->
  shown_in_line renders (if ceq c c_hash then [c_hash] else []) [c_bslash; c] (escaped [c]).
Proof.
  intros c I. apply span_shown, sp_escape. revert I. unfold punctuation.
  assert (X : forallb (fun c => negb (is_whitespace c)) (lit "!""#$%&'()*+,-./:;<=>?@[]^_`{|}~") = true) by reflexivity.
  rewrite forallb_forall in X. intros I. apply X in I. now apply negb_true_iff.
Qed.
Print Assumptions C31_escape_partial.
(** In a text all of whose characters are escaped no construct is recognised:
    the whole text is shown. *)
Definition escape_all (t : str) : str := flat_map (fun c => [c_bslash; c]) t.
Theorem C31_all_escaped_partial : forall t, t <> [] -> forallb visible t = true ->
  renders (escape_all t) (p_tag (escaped t)).
Proof.
  intros t NE V.
  assert (P : forall c u, visible c = true -> piece false (escape_all u) [c_bslash; c] true (esc c)).
  { intros c u W. apply span_piece with (no := if ceq c c_hash then [c_hash] else []).
    - replace (esc c) with (escaped [c]) by (unfold escaped; cbn [flat_map]; apply app_nil_r).
      apply sp_escape. now apply negb_true_iff.
    - destruct u, (ceq c c_hash); reflexivity.
    - destruct u; reflexivity. }
  assert (D : forall u, forallb visible u = true -> doc false true false 0 LNone (escape_all u) (escaped u ++ close_p true) (mkF false 0 [] [])).
  { intros u. induction u as [|c u IH]; intros W; [apply (d_end false true false 0 LNone)|].
    cbn [forallb] in W. apply andb_true_iff in W as [W1 W2].
    change (escape_all (c :: u)) with ([c_bslash; c] ++ escape_all u). unfold escaped. cbn [flat_map]. fold (escaped u). rewrite <- app_assoc.
    apply d_more; auto. }
  destruct t as [|c u]; [easy|]. cbn [forallb] in V. apply andb_true_iff in V as [W1 W2].
  assert (K : doc false false false 0 LNone (escape_all (c :: u)) (p_tag (escaped (c :: u))) (mkF false 0 [] [])).
  { change (escape_all (c :: u)) with ([c_bslash; c] ++ escape_all u). unfold escaped, p_tag. cbn [flat_map]. fold (escaped u). rewrite <- app_assoc.
    apply (d_open false false 0 LNone [c_bslash; c] (escape_all u) (esc c) (escaped u ++ close_p true)); auto. }
  apply doc_renders in K. destruct (p_tag_ends (escaped (c :: u))) as [z E]. rewrite E in *. now rewrite with_nl_ends in K.
Qed.
Print Assumptions C31_all_escaped_partial.
Example C31_ex : escape_all (lit "*a*") = lit "\*\a\*" /\ forallb visible (lit "#**`<[x](y)|") = true /\ In c_star punctuation.
Proof. split; [reflexivity|]. split; [reflexivity|]. vm_compute. tauto. Qed.
(** Missing: the backslash itself, of which nothing is shown. *)
Theorem C31_backslash_refuted : shown_in_line renders [] [c_bslash; c_bslash] [].
Proof. exact (span_shown _ _ _ (sp_escape c_bslash eq_refl)). Qed.
Print Assumptions C31_backslash_refuted.

(** ** C32: a trailing backslash invents no text

    Refuted for every document of ordinary text that ends in a backslash: the three
    letters EOF are shown. *)
Theorem C32_trailing_backslash_refuted : forall ps a, paragraphs ps -> lead a = true ->
  renders (before ps ++ a ++ [c_bslash]) (p_tags ps ++ p_tag (txt a ++ lit "EOF")).
Proof. apply line_shown_end; [easy|reflexivity|apply p_eof]. Qed.
Print Assumptions C32_trailing_backslash_refuted.
Example C32_ex : renders (lit "C:\") (lit "<p>C:EOF</p>" ++ [c_nl]).
Proof. exact (C32_trailing_backslash_refuted [] (lit "C:") (Forall_nil _) eq_refl). Qed.
(** With a line break behind it nothing is added. *)
Theorem C32_backslash_newline_partial : forall ps a, paragraphs ps -> lead a = true -> has_ink a = true ->
  renders (before ps ++ a ++ [c_bslash; c_nl]) (p_tags ps ++ p_tag (txt a)).
Proof.
  intros ps a P A I.
  assert (D : forall b, doc false b false 0 LNone ([c_bslash; c_nl] ++ []) ([] ++ close_p b) (mkF false 0 [] [])).
  { intros b. apply d_blank; [|apply (d_end false b false 0 LNone)]. exact (p_escape false [] c_nl ltac:(discriminate)). }
  rewrite app_nil_r in D. cbn [app] in D. destruct (lead_before a [c_bslash; c_nl] [] A ltac:(easy) eq_refl) as [O S1].
  rewrite app_nil_r in O. rewrite app_nil_r in S1.
  pose proof (ord_open false false [c_bslash; c_nl] _ _ _ _ S1 (D true) (D false) (length a) a (le_n _) O) as K. rewrite I in K.
  apply (before_doc false false ps) in K; [|exact P|exact (starts_lead a [c_bslash; c_nl] [] A ltac:(easy) eq_refl)].
  apply doc_renders in K. rewrite with_nl_app in K by apply p_tag_ends. exact K.
Qed.
Print Assumptions C32_backslash_newline_partial.

(** ** C33: unmatched '<' is shown

    Refuted for every '<' without a '>' behind it, which is dropped. *)
Theorem C33_lt_refuted : forall ps a t, paragraphs ps -> lead a = true -> ~ In c_gt t -> literal t ->
  renders (before ps ++ a ++ lit "<" ++ t) (p_tags ps ++ p_tag (txt a ++ escaped t)).
Proof.
  intros ps a t P A G L. apply (line_shown_end (lit "<" ++ t)); auto; [easy|]. now apply p_lt_open.
Qed.
Print Assumptions C33_lt_refuted.
Lemma literal_simple x t : is_whitespace x = false -> ~ In c_nl (x :: t) -> ~ In c_rbrk (x :: t) -> literal (x :: t).
Proof. intros W N R. split; [now exists x, t|]. split; [now left|now right]. Qed.
Example C33_ex : renders (lit "if a <b then c") (lit "<p>ifab then c</p>" ++ [c_nl]).
Proof.
  refine (C33_lt_refuted [] (lit "if a ") (lit "b then c") (Forall_nil _) eq_refl _ _).
  - vm_compute. intuition discriminate.
  - apply literal_simple; [reflexivity|..]; vm_compute; intuition discriminate.
Qed.
(** True of '<' with a '>' behind it that is no autolink: at most one line, no note reference. *)
Theorem C33_angle_partial : forall t, ~ In c_gt t -> t <> lit "details" ->
  existsb is_whitespace t = true \/ (~ In c_colon t /\ ~ In c_at t) -> ~ infix (lit "[^") t \/ ~ In c_rbrk t ->
  shown_in_line renders [] (lit "<" ++ t ++ lit ">") (lit "&lt;" ++ escaped t ++ lit "&gt;").
Proof.
  intros t G D W F. pose proof (sp_angle t G D W) as S0. rewrite !escaped_app in S0. apply span_shown, S0.
  split; [|split].
  - now exists c_lt, (t ++ [c_gt]).
  - right. exists (lit "<" ++ t), c_gt. split; [now rewrite <- app_assoc|reflexivity].
  - destruct F as [F|F]; [left|right].
    + intros I. apply F. change (lit "<" ++ t ++ lit ">") with (c_lt :: (t ++ [c_gt])) in I.
      destruct I as (x & y & K). destruct x as [|x1 x]; [discriminate K|]. injection K as _ K.
      apply (infix_snoc c_lbrk c_caret c_gt t); [|discriminate]. now exists x, y.
    + rewrite !in_app_iff. intros [I|[I|I]]; [|easy|]; revert I; vm_compute; intuition discriminate.
Qed.
Print Assumptions C33_angle_partial.
Example C33_angle_ex : existsb is_whitespace (lit " b & c ") = true /\ ~ In c_gt (lit " b & c ").
Proof. split; [reflexivity|vm_compute; intuition discriminate]. Qed.

(** ** C34: images

    ([schemeless u]: a url of ASCII characters without ':', '@' and white space.) *)
Theorem C34_image_partial : forall named t u, html5 named -> ~ In c_rbrk t -> ~ In c_rpar u -> schemeless u -> u <> [] ->
  exists alt, (~ In c_pipe t -> ~ In c_tilde t -> ~ In c_bslash t -> decode named alt = t) /\
  ~ In c_quot alt /\ ~ In c_lt alt /\
  shown_as_block renders (lit "![" ++ t ++ lit "](" ++ u ++ lit ")")
    (lit "<p><img src=""" ++ u ++ lit """ alt=""" ++ alt ++ lit """ referrerpolicy=""no-referrer""></p>").
Proof.
  intros named t u H T U S0 NE. exists (escaped t). split; [now apply decode_escaped|]. split; [|split; [apply escaped_no_lt|]].
  { unfold escaped. intros I. apply in_flat_map in I as (c & _ & I). revert I.
    apply (esc_cases (fun c e => ~ In c_quot e)); try (vm_compute; intuition discriminate). }
  apply block_shown; [easy|reflexivity|]. intros qs Q. apply d_blank.
  - apply (p_image false (after qs) t u u); auto. now apply src_rel.
  - exact (after_doc false false qs Q false).
Qed.
Print Assumptions C34_image_partial.
Example C34_ex : schemeless (lit "img/a-1.png?x=1#y") /\ ~ In c_rbrk (lit "An image ""of"" this").
Proof.
  split; [split; [reflexivity|split]|]; vm_compute; intuition discriminate.
Qed.
(** Missing: urls with a scheme, which is dropped from every one of them. *)
Theorem C34_scheme_refuted : forall t a b, ~ In c_rbrk t -> ~ In c_rpar (a ++ [c_colon] ++ b) ->
  good_scheme a -> to_lowercase a <> lit "data" -> forallb url_char b = true -> ~ In c_at b -> b <> [] ->
  shown_as_block renders (lit "![" ++ t ++ lit "](" ++ (a ++ [c_colon] ++ b) ++ lit ")") (img_tag b t).
Proof.
  intros t a b T U G D B A NE. apply block_shown; [easy|reflexivity|]. intros qs Q. apply d_blank.
  - apply (p_image false (after qs) t _ b); auto. now apply src_abs.
  - exact (after_doc false false qs Q false).
Qed.
Print Assumptions C34_scheme_refuted.
Example C34_scheme_ex : good_scheme (lit "https") /\ forallb url_char (lit "//example.com/a.png") = true /\
  renders (lit "![x](https://a.b/c)") (img_tag (lit "//a.b/c") (lit "x") ++ [c_nl]).
Proof.
  assert (G : good_scheme (lit "https")) by (split; [reflexivity|split; [cbn; lia|discriminate]]).
  split; [exact G|]. split; [reflexivity|].
  refine (C34_scheme_refuted (lit "x") (lit "https") (lit "//a.b/c") _ _ G _ _ _ _ [] [] (Forall_nil _) (Forall_nil _));
    try easy; vm_compute; intuition discriminate.
Qed.

(** ** C35: inline links and autolinks

    ([encoded]: percent-encoding of the characters %#[]!$'()* , space and backslash, and
    the ampersand as a reference.) *)
Theorem C35_link_partial : forall named t a b, html5 named -> ~ In c_rbrk t -> ~ In c_rpar (a ++ [c_colon] ++ b) ->
  good_scheme a -> (to_lowercase a = lit "data" -> exists y, b = lit "image/" ++ y) ->
  forallb url_char b = true -> ~ In c_at b ->
  exists body, ~ In c_lt body /\ (~ In c_pipe t -> ~ In c_tilde t -> ~ In c_bslash t -> decode named body = t) /\
  shown_in_line renders [] (lit "[" ++ t ++ lit "](" ++ (a ++ [c_colon] ++ b) ++ lit ")")
    (lit "<a href=""" ++ (a ++ [c_colon] ++ encoded b) ++ lit """>" ++ body ++ lit "</a>").
Proof.
  intros named t a b H T U G D B A. exists (escaped t). split; [apply escaped_no_lt|]. split; [now apply decode_escaped|].
  apply span_shown. apply sp_link; auto. eapply href_dest. now apply dest_abs.
Qed.
Print Assumptions C35_link_partial.
Theorem C35_autolink_partial : forall a b, ~ In c_gt (a ++ [c_colon] ++ b) ->
  good_scheme a -> to_lowercase a <> lit "data" -> a <> lit "mailto" -> forallb url_char b = true -> ~ In c_at b ->
  shown_in_line renders [] (lit "<" ++ (a ++ [c_colon] ++ b) ++ lit ">")
    (lit "<a href=""" ++ (a ++ [c_colon] ++ encoded b) ++ lit """>" ++ (a ++ [c_colon] ++ amp_escaped b) ++ lit "</a>").
Proof.
  intros a b U G D M B A. apply span_shown. apply (sp_auto (a ++ [c_colon] ++ b) (a ++ [c_colon] ++ encoded b)); [|exact U].
  assert (X : dest (a ++ [c_colon] ++ b) (a ++ [c_colon] ++ encoded b)
    (if str_eqb a (lit "mailto") then amp_escaped b else a ++ [c_colon] ++ amp_escaped b)) by now apply dest_abs.
  destruct (str_eqb a (lit "mailto")) eqn:E; [apply str_eqb_eq in E; easy|exact X].
Qed.
Print Assumptions C35_autolink_partial.
Theorem C35_mail_autolink_partial : forall a b, forallb url_char (a ++ b) = true -> ~ In c_gt (a ++ [c_at] ++ b) ->
  ~ In c_at (a ++ b) -> ~ In c_colon (a ++ b) -> ~ In c_bslash (a ++ b) ->
  shown_in_line renders [] (lit "<" ++ (a ++ [c_at] ++ b) ++ lit ">")
    (lit "<a href=""mailto:" ++ encoded (a ++ [c_at] ++ b) ++ lit """>" ++ amp_escaped (a ++ [c_at] ++ b) ++ lit "</a>").
Proof. intros a b F G A C B. exact (span_shown _ _ _ (sp_auto _ _ _ (dest_mail a b F A C B) G)). Qed.
Print Assumptions C35_mail_autolink_partial.
Example C35_ex : good_scheme (lit "https") /\ forallb url_char (lit "//x.y/~z?a=1&b=(2)") = true /\
  encoded (lit "//x/#a(b)&c") = lit "//x/%23a%28b%29&amp;c" /\ forallb url_char (lit "me" ++ lit "x.org") = true.
Proof. split; [split; [reflexivity|split; [cbn; lia|discriminate]]|now split]. Qed.
(** Missing: relative urls, which all become http: urls without a host ... *)
Theorem C35_relative_refuted : forall t u, ~ In c_rbrk t -> ~ In c_rpar u -> schemeless u ->
  shown_in_line renders [] (lit "[" ++ t ++ lit "](" ++ u ++ lit ")") (a_tag (lit "http:" ++ encoded u) (escaped t)).
Proof. intros t u T U S0. apply span_shown, sp_link; auto. now apply href_rel. Qed.
Print Assumptions C35_relative_refuted.
(** ... and links with a title, of which the href is empty and which swallow the rest of their line. *)
Theorem C35_title_refuted : forall t u title rest href ps a q qs, ~ In c_rbrk t -> ~ In c_rpar u -> href_of u href ->
  ~ In c_rpar title -> ~ In c_nl rest -> paragraphs (q :: ps ++ qs) -> lead a = true ->
  renders (before ps ++ (a ++ lit "[" ++ t ++ lit "](" ++ u ++ lit " " ++ title ++ lit ")" ++ rest ++ [c_nl]) ++ q ++ after qs)
    (p_tags ps ++ p_tag (txt a ++ a_title_tag href (lit " " ++ title) (escaped t) ++ txt q) ++ p_tags qs).
Proof.
  intros t u title rest href ps a q qs T U H TI R F A.
  inversion F as [|? ? Q F1]; subst. apply Forall_app in F1 as [P F2].
  assert (PI : piece false (q ++ after qs) (lit "[" ++ t ++ lit "](" ++ u ++ lit " " ++ title ++ lit ")" ++ rest ++ [c_nl]) true
    (a_title_tag href (lit " " ++ title) (escaped t))) by now apply p_link_title.
  assert (TQ : trail q = true).
  { apply paragraph_parts in Q as (O & _ & _ & E). unfold trail. now rewrite O, E. }
  remember (lit "[" ++ t ++ lit "](" ++ u ++ lit " " ++ title ++ lit ")" ++ rest ++ [c_nl]) as s eqn:ES.
  assert (NE : s <> []) by (rewrite ES; easy).
  assert (S0 : starts_in [c_sp; c_tab; c_nl; c_dot] s = false) by (rewrite ES; reflexivity). clear ES.
  destruct (lead_before a s (q ++ after qs) A NE S0) as [O S1].
  pose proof (trail_doc false false q qs TQ F2) as TD.
  assert (D : doc false false false 0 LNone (before ps ++ (a ++ s) ++ q ++ after qs)
    (p_tags ps ++ p_tag (txt a ++ a_title_tag href (lit " " ++ title) (escaped t) ++ txt q) ++ p_tags qs) (mkF false 0 [] [])).
  { rewrite <- !app_assoc. apply before_doc; [exact P | now apply starts_lead|].
    unfold p_tag. rewrite <- !app_assoc. apply lead_doc; auto.
    - apply d_more; [exact PI | exact TD].
    - apply (d_open false false 0 LNone s (q ++ after qs) _ _ _ PI TD). }
  apply doc_renders in D.
  assert (W : forall x, with_nl (p_tags ps ++ p_tag x ++ p_tags qs) = p_tags ps ++ p_tag x ++ p_tags qs).
  { intros x. destruct (p_tags_ends qs) as [E|E].
    - rewrite E, app_nil_r. apply with_nl_app, p_tag_ends.
    - rewrite (app_assoc (p_tags ps)). now apply with_nl_app. }
  now rewrite W in D.
Qed.
Print Assumptions C35_title_refuted.
Example C35_refuted_ex : schemeless (lit "docs/intro.html") /\
  renders (lit "[x](y ""z"") lost" ++ [c_nl] ++ lit "w") (lit "<p><a href=>""http:y"" title="" ""z"""">x</a>w</p>" ++ [c_nl]).
Proof.
  split; [split; [reflexivity|split]; vm_compute; intuition discriminate|]. exists 4. vm_compute. reflexivity.
Qed.

(** ** C36: thematic breaks *)
Theorem C36_rule_partial : forall s, 
  (incl s [c_minus; c_plus] /\ 3 <= length s) \/ (exists n c, In c [c_star; c_under] /\ 4 <= n /\ s = crep n c) ->
  shown_as_block renders s (lit "<hr />" ++ [c_nl]).
Proof.
  intros s H.
  assert (NE : s <> []).
  { destruct H as [[_ L]|(n & c & _ & L & ->)]; [intros ->; cbn in L; lia|destruct n; [lia|easy]]. }
  assert (S0 : starts_in [c_nl] s = false).
  { destruct s as [|x s]; [reflexivity|]. destruct H as [[I _]|(n & c & I & L & E)].
    - destruct (I x (or_introl eq_refl)) as [<-|[<-|[]]]; reflexivity.
    - destruct n; [lia|]. injection E as -> _. destruct I as [<-|[<-|[]]]; reflexivity. }
  apply block_shown; auto. intros qs Q. apply (d_rule false false false 0 s (after qs)).
  - assert (A : forall cs, ~ In c_nl cs -> starts_in cs (after qs) = false).
    { intros cs N. destruct (after_head qs) as [->|[r' ->]]; [reflexivity|]. cbn [starts_in].
      destruct (mem_char c_nl cs) eqn:E; [apply mem_char_iff in E; easy|reflexivity]. }
    destruct H as [[I L]|(n & c & I & L & ->)].
    + apply rl_dashes; auto. apply A. vm_compute. intuition discriminate.
    + apply rl_long; auto. apply A. vm_compute. intuition discriminate.
  - exact (after_doc false false qs Q false).
Qed.
Print Assumptions C36_rule_partial.
(** Asterisks only if something follows; then one is enough, too. *)
Theorem C36_stars_partial : forall n ps q qs, 1 <= n -> paragraphs (q :: ps ++ qs) ->
  renders (before ps ++ crep n c_star ++ after (q :: qs)) (p_tags ps ++ (lit "<hr />" ++ [c_nl]) ++ p_tags (q :: qs)).
Proof.
  intros n ps q qs B F. inversion F as [|? ? Q F1]; subst. apply Forall_app in F1 as [P F2].
  assert (D : doc false false false 0 LNone (before ps ++ crep n c_star ++ after (q :: qs)) (p_tags ps ++ (lit "<hr />" ++ [c_nl]) ++ p_tags (q :: qs)) (mkF false 0 [] [])).
  { apply before_doc; [exact P | destruct n; [lia|reflexivity]|].
    apply (d_rule false false false 0 (crep n c_star) (after (q :: qs))); [now apply rl_stars|].
    apply (after_doc false false (q :: qs)). now constructor. }
  apply doc_renders in D. destruct (p_tags_ends (q :: qs)) as [E|E]; [discriminate E|].
  rewrite !(app_assoc _ _ (p_tags (q :: qs))) in D. rewrite with_nl_app in D by exact E. rewrite <- !app_assoc in D.
  rewrite <- !app_assoc. exact D.
Qed.
Print Assumptions C36_stars_partial.
Example C36_ex : incl (lit "---") [c_minus; c_plus] /\ paragraphs [lit "next"; lit "one"].
Proof. split; [intros x; vm_compute; tauto | repeat constructor]. Qed.
(** The full statement is false of three underscores, and of three asterisks at the
    end of the document; and one asterisk is a thematic break. *)
Theorem C36_three_refuted :
  renders (lit "___") (lit "<p>___</p>" ++ [c_nl]) /\ renders (lit "***") (lit "<p>***</p>" ++ [c_nl]) /\
  renders (lit "*" ++ [c_nl; c_nl] ++ lit "x") (lit "<hr />" ++ [c_nl] ++ lit "<p>x</p>" ++ [c_nl]).
Proof.
  split; [exists 3; reflexivity|]. split; [exists 3; reflexivity|].
  exact (C36_stars_partial 1 [] (lit "x") [] (le_n _) ltac:(repeat constructor)).
Qed.
Print Assumptions C36_three_refuted.

(** ** C37: hard line breaks

    Refuted for all texts and numbers of spaces: nothing is shown for them. *)
Theorem C37_hard_break_refuted : forall n ps a b qs, 1 <= n -> paragraphs (b :: ps ++ qs) -> lead a = true -> has_ink a = true ->
  ordinary (a ++ [c_sp]) = true ->
  renders (before ps ++ (a ++ crep n c_sp ++ [c_nl] ++ b) ++ after qs) (p_tags ps ++ p_tag (txt a ++ txt b) ++ p_tags qs).
Proof.
  intros n ps a b qs N F A IA SA. inversion F as [|? ? Q F1]; subst. apply Forall_app in F1 as [P F2].
  assert (TB : trail b = true).
  { apply paragraph_parts in Q as (O & _ & _ & E). unfold trail. now rewrite O, E. }
  assert (NB : starts_in [c_nl] (b ++ after qs) = false) by now apply starts_in_para.
  pose proof (trail_doc false false b qs TB F2) as TD.
  assert (D1 : doc false true false 0 LNone (crep n c_sp ++ [c_nl] ++ b ++ after qs) (txt b ++ close_p true ++ p_tags qs) (mkF false 0 [] [])).
  { change (txt b ++ close_p true ++ p_tags qs) with ([] ++ [] ++ txt b ++ close_p true ++ p_tags qs).
    apply d_blank.
    - destruct (le_lt_dec n 3); [now apply p_blanks | now apply p_break].
    - apply d_blank; [now apply p_newline | exact TD]. }
  assert (D0 : exists g, doc false false false 0 LNone (crep n c_sp ++ [c_nl] ++ b ++ after qs) g (mkF false 0 [] [])).
  { eexists. apply d_blank.
    - destruct (le_lt_dec n 3); [now apply p_blanks | now apply p_break].
    - apply d_blank; [now apply p_newline |]. now apply tail_doc. }
  destruct D0 as [g D0].
  apply lead_parts in A as (OA & NA & BA).
  assert (OB : ord_before (crep n c_sp ++ [c_nl] ++ b ++ after qs) a = true).
  { destruct n as [|n]; [lia|]. now apply ord_space. }
  assert (S1 : starts_in [c_tab; c_dot] (crep n c_sp ++ [c_nl] ++ b ++ after qs) = false) by (destruct n; [lia|reflexivity]).
  pose proof (ord_open false false _ _ _ _ _ S1 D1 D0 (length a) a (le_n _) OB) as K. rewrite IA in K.
  apply (before_doc false false ps) in K; [|exact P|destruct a; [discriminate IA|exact NA]].
  apply doc_renders in K.
  assert (W : forall x, with_nl (p_tags ps ++ p_tag x ++ p_tags qs) = p_tags ps ++ p_tag x ++ p_tags qs).
  { intros x. destruct (p_tags_ends qs) as [E|E].
    - rewrite E, app_nil_r. apply with_nl_app, p_tag_ends.
    - rewrite (app_assoc (p_tags ps)). now apply with_nl_app. }
  rewrite <- W. unfold p_tag. rewrite <- !app_assoc. exact K.
Qed.
Print Assumptions C37_hard_break_refuted.
Example C37_ex : lead (lit "one.") = true /\ ordinary (lit "one." ++ [c_sp]) = true /\ paragraphs [lit "two"] /\
  renders (lit "a  " ++ [c_nl] ++ lit "b") (lit "<p>ab</p>" ++ [c_nl]).
Proof.
  split; [reflexivity|]. split; [reflexivity|]. split; [repeat constructor|].
  exact (C37_hard_break_refuted 2 [] (lit "a") (lit "b") [] ltac:(lia) ltac:(repeat constructor) eq_refl eq_refl eq_refl).
Qed.
