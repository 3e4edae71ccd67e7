(** * Properties: further constructs of GitHub's Markdown (C90 - C97).

    Vocabulary: SpecText.v ([ordinary] text, [paragraphs], [txt], [shown_in_line]), SpecBlocks.v (lists, quotes and
    tables) and SpecGfm.v.  The negative theorems say what is shown instead, for all texts. *)
From Coq Require Import Ascii String.
From Verif Require Import Strings StringsFacts Token Iter Lexer Parser SanitizeFacts Markdown MarkdownFacts MarkdownSound
  Decode DecodeFacts SpecText TextFacts SpecBlocks BlockFacts SpecGfm GfmFacts.
Open Scope list_scope.

(** ** C90: a marker inside a line is text *)

(** Refuted: hashes, arrows, bullets and numbers begin a block behind any text, on the same line. *)
Theorem C90_hash_refuted : forall ps a n t, paragraphs ps -> paragraph (a ++ [c_sp]) = true -> 1 <= n <= 6 -> heading_ordinary t ->
  renders (before ps ++ a ++ [c_sp] ++ crep n c_hash ++ [c_sp] ++ t) (p_tags ps ++ p_tag (txt a) ++ h_tag n (txt t)).
Proof. exact hash_in_line. Qed.
Print Assumptions C90_hash_refuted.
Theorem C90_quote_refuted : forall ps a t, paragraphs ps -> paragraph (a ++ [c_sp]) = true -> words_on_line t -> starts_in [c_sp] t = false ->
  renders (before ps ++ a ++ [c_sp] ++ lit "> " ++ t)
    (p_tags ps ++ lit "<p>" ++ txt a ++ lit "</p>" ++ bq_open ++ [c_nl] ++ p_tag (escaped (escaped (ink t))) ++ bq_close ++ [c_nl]).
Proof. intros ps a t P A (O & I & N) S. now apply quote_in_line. Qed.
Print Assumptions C90_quote_refuted.
Theorem C90_bullet_refuted : forall ps a m t h, paragraphs ps -> paragraph (a ++ [c_sp]) = true -> In m bullets -> item_text t h ->
  renders (before ps ++ a ++ [c_sp; m; c_sp] ++ t)
    (p_tags ps ++ lit "<p>" ++ txt a ++ lit "<ul>" ++ [c_nl] ++ li_tag (p_tag h) ++ lit "</p>" ++ [c_nl] ++ lit "</ul>" ++ [c_nl]).
Proof. exact bullet_in_line. Qed.
Print Assumptions C90_bullet_refuted.
Theorem C90_number_refuted : forall ps a d t, paragraphs ps -> paragraph (a ++ [c_sp]) = true -> is_digit d = true -> ~ In c_nl t ->
  renders (before ps ++ a ++ [c_sp; d] ++ lit ". " ++ t)
    (p_tags ps ++ lit "<p>" ++ txt a ++ lit "<ol>" ++ [c_nl] ++ li_tag (escaped t) ++ lit "</p>" ++ [c_nl] ++ lit "</ol>" ++ [c_nl]).
Proof. exact number_in_line. Qed.
Print Assumptions C90_number_refuted.
(** Text are: arrows that no space follows, and two hyphens or plus signs.  (Hashes that no blank follows are part of
    ordinary text, see C08; escaped markers are C31.) *)
Theorem C90_arrows_partial : forall n, 1 <= n -> shown_in_line renders [c_sp] (crep n c_gt) (escaped (crep n c_gt)).
Proof. exact arrows_shown. Qed.
Print Assumptions C90_arrows_partial.
Theorem C90_two_hyphens_partial : forall a b, In a [c_minus; c_plus] -> In b [c_minus; c_plus] -> shown_in_line renders [] [a; b] [a; b].
Proof. exact hyphens_shown. Qed.
Print Assumptions C90_two_hyphens_partial.
Example C90_ex : paragraph (lit "It is 5 " ) = true /\ heading_ordinary (lit "of them") /\ words_on_line (lit "4, see") /\
  item_text (lit "3 is 15") (txt (lit "3 is 15")) /\
  renders (lit "5 * 3 is 15") (lit "<p>5<ul>" ++ [c_nl] ++ lit "<li>" ++ [c_nl] ++ lit "<p>3is15</p>" ++ [c_nl] ++ lit "</li>" ++ [c_nl]
    ++ lit "</p>" ++ [c_nl] ++ lit "</ul>" ++ [c_nl]) /\
  escaped (crep 2 c_gt) = lit "&gt;&gt;".
Proof.
  assert (T : item_text (lit "3 is 15") (txt (lit "3 is 15"))).
  { split; [now apply in_end|]. split; [reflexivity|]. split; [vm_compute; intuition discriminate|]. split; [reflexivity|]. split.
    - intros x [<-|[<-|[<-|[]]]]; reflexivity.
    - intros I. apply contains_iff in I. discriminate I. }
  split; [reflexivity|]. split; [split; [reflexivity|]; do 2 (split; [vm_compute; intuition discriminate|]); now exists (lit "of the"), 109%N|].
  split; [split; [reflexivity|split; [reflexivity|vm_compute; intuition discriminate]]|]. split; [exact T|]. split; [|reflexivity].
  exact (C90_bullet_refuted [] (lit "5") c_star _ _ (Forall_nil _) eq_refl (or_intror (or_intror (or_introl eq_refl))) T).
Qed.

(** ** C91: underlined lines are headings *)

(** Refuted for every line: the signs of equality are shown behind the text, hyphens become a rule inside the paragraph,
    or, if there are two, text. *)
Theorem C91_equals_refuted : forall ps t n qs, paragraphs ps -> paragraph t = true -> 1 <= n -> paragraphs qs ->
  renders (before ps ++ (t ++ [c_nl] ++ crep n c_equals) ++ after qs) (p_tags ps ++ p_tag (txt t ++ crep n c_equals) ++ p_tags qs).
Proof. exact underlined_equals. Qed.
Print Assumptions C91_equals_refuted.
Theorem C91_hyphens_refuted : forall ps t n qs, paragraphs ps -> paragraph t = true -> 3 <= n -> paragraphs qs ->
  renders (before ps ++ (t ++ [c_nl] ++ crep n c_minus) ++ after qs)
    (p_tags ps ++ p_tag (txt t ++ lit "<hr />" ++ [c_nl]) ++ p_tags qs).
Proof. exact underlined_dashes. Qed.
Print Assumptions C91_hyphens_refuted.
Example C91_ex : paragraph (lit "The title") = true /\
  renders (lit "Title" ++ [c_nl] ++ lit "===") (lit "<p>Title===</p>" ++ [c_nl]) /\
  renders (lit "Title" ++ [c_nl] ++ lit "---") (lit "<p>Title<hr />" ++ [c_nl] ++ lit "</p>" ++ [c_nl]).
Proof.
  split; [reflexivity|]. split.
  - exact (C91_equals_refuted [] (lit "Title") 3 [] (Forall_nil _) eq_refl ltac:(lia) (Forall_nil _)).
  - exact (C91_hyphens_refuted [] (lit "Title") 3 [] (Forall_nil _) eq_refl ltac:(lia) (Forall_nil _)).
Qed.

(** ** C92: character references stand for their characters *)

(** Refuted for every reference in ordinary text: the reader sees the reference as it is written. *)
Theorem C92_reference_refuted : forall named a name b, html5 named -> ordinary (a ++ reference name ++ b) = true ->
  forallb visible name = true ->
  exists body, renders (a ++ reference name ++ b) (p_tag body) /\ decode named body = ink a ++ reference name ++ ink b.
Proof.
  intros named a name b H O V. exists (txt (a ++ reference name ++ b)). split.
  - apply ordinary_paragraph; [exact O|]. unfold reference. rewrite !has_ink_app'. cbn. now rewrite orb_true_r.
  - rewrite decode_txt by auto. unfold ink. rewrite !filter_app. f_equal. f_equal.
    assert (E : filter visible name = name).
    { clear - V. induction name as [|c n IH]; [reflexivity|]. cbn in *. apply andb_true_iff in V as [V1 V2]. now rewrite V1, IH. }
    unfold reference. rewrite !filter_app, E. reflexivity.
Qed.
Print Assumptions C92_reference_refuted.
(** (a browser that is given the reference itself shows another text) *)
Example C92_ex : html5 html5_min /\ ordinary (lit "you " ++ reference (lit "amp") ++ lit " me") = true /\
  decode html5_min (reference (lit "amp")) = lit "&" /\ decode html5_min (reference (lit "#41")) = lit ")" /\
  ordinary (lit "so" ++ reference (lit "#41")) = true.
Proof. split; [exact html5_min_ok|]. repeat split. Qed.

(** ** C93: links by reference *)

(** Refuted for every label and destination: label and definition are shown as text. *)
Theorem C93_reference_refuted : forall a t b u, label t -> lead a = true -> trail b = true -> starts_in [c_lpar] b = false -> trail u = true ->
  ordinary (lit ": " ++ u) = true ->
  renders (a ++ bracketed t ++ b ++ blank_line ++ bracketed t ++ lit ": " ++ u)
    (p_tag (txt a ++ escaped (bracketed t) ++ txt b) ++ p_tag (escaped (bracketed t) ++ lit ":" ++ txt u)).
Proof. exact reference_shown. Qed.
Print Assumptions C93_reference_refuted.
Theorem C93_text_refuted : forall a s t, label s -> label t -> lead a = true ->
  renders (a ++ bracketed s ++ bracketed t) (p_tag (txt a ++ escaped (bracketed s) ++ escaped (bracketed t))).
Proof. exact reference_text_shown. Qed.
Print Assumptions C93_text_refuted.
Example C93_ex : label (lit "the *book*") /\ lead (lit "See ") = true /\ trail (lit ".") = true /\ trail (lit "http://a.org/b") = true /\
  ordinary (lit ": http://a.org/b") = true /\ bracketed (lit "x") = lit "[x]".
Proof. split; [|repeat split]. repeat split; try (vm_compute; intuition discriminate); reflexivity. Qed.

(** ** C94: emphasis inside other constructs *)

(** Refuted: the marks are shown in text that is struck through and in the text of links, ... *)
Theorem C94_strike_refuted : forall d t, In d [c_star; c_under] -> ~ In c_tilde t ->
  shown_in_line renders [] (lit "~~" ++ ([d] ++ t ++ [d]) ++ lit "~~") (strike_tag ([d] ++ t ++ [d])).
Proof.
  intros d t D T. apply span_shown, sp_strike; [easy|]. rewrite !in_app_iff. destruct D as [<-|[<-|[]]]; intros [[K|[]]|[K|[K|[]]]]; try discriminate K; easy.
Qed.
Print Assumptions C94_strike_refuted.
Theorem C94_link_refuted : forall d t u href, In d [c_star; c_under] -> ~ In c_rbrk t -> ~ In c_rpar u -> href_of u href ->
  shown_in_line renders [] (lit "[" ++ ([d] ++ t ++ [d]) ++ lit "](" ++ u ++ lit ")") (a_tag href (escaped ([d] ++ t ++ [d]))).
Proof.
  intros d t u href D T U H. apply span_shown, sp_link; auto. rewrite !in_app_iff. destruct D as [<-|[<-|[]]]; intros [[K|[]]|[K|[K|[]]]]; try discriminate K; easy.
Qed.
Print Assumptions C94_link_refuted.
(** ... and emphasis inside strong emphasis ends in a list, if a space follows it. *)
Theorem C94_strong_refuted : forall ps a b c d, paragraphs ps -> Forall words_on_line [a; b; c; d] -> starts_in [c_sp] c = false ->
  renders (before ps ++ lit "**" ++ a ++ lit "*" ++ b ++ lit "* " ++ c ++ lit "**" ++ d)
    (p_tags ps ++ lit "<p>" ++ escaped (lit "**" ++ a ++ lit "*") ++ txt b ++ lit "<ul>" ++ [c_nl]
     ++ li_tag (p_tag (txt c ++ escaped (lit "**" ++ d))) ++ lit "</p>" ++ [c_nl] ++ lit "</ul>" ++ [c_nl]).
Proof. exact nested_emphasis. Qed.
Print Assumptions C94_strong_refuted.
Example C94_ex : ~ In c_tilde (lit "b c") /\ strike_tag (lit "*b c*") = lit "<strike>*b c*</strike>" /\
  Forall words_on_line [lit "very "; lit "much"; lit "so"; lit ", yes"].
Proof. split; [vm_compute; intuition discriminate|]. split; [reflexivity|]. repeat constructor; vm_compute; intuition discriminate. Qed.

(** ** C95: the rows of a table may have fewer or more cells than its head *)

(** Refuted: whenever two of the lines have different numbers of cells, all of them are shown as text. *)
Theorem C95_rows_refuted : forall ps rows r1 r2, paragraphs ps -> Forall (Forall bar_free) rows -> In r1 rows -> In r2 rows -> length r1 <> length r2 ->
  ~ In c_lbrk (concat (concat rows)) ->
  renders (before ps ++ lines (map row_src rows)) (p_tags ps ++ p_tag (escaped (lines (map row_src rows)))).
Proof. exact uneven_table. Qed.
Print Assumptions C95_rows_refuted.
Definition uneven : list (list str) := [[lit "a"; lit "b"]; [lit "---"; lit "---"]; [lit "c"]].
Example C95_ex : Forall (Forall bar_free) uneven /\ ~ In c_lbrk (concat (concat uneven)) /\
  lines (map row_src uneven) = lit "|a|b|" ++ [c_nl] ++ lit "|---|---|" ++ [c_nl] ++ lit "|c|".
Proof. split; [|split; [vm_compute; intuition discriminate|reflexivity]]. repeat constructor; vm_compute; intuition discriminate. Qed.

(** ** C96: underscores inside words are text *)

(** Refuted: the text between two of them is emphasised, and both are lost, ... *)
Theorem C96_pair_refuted : forall t, unmarked t -> starts_in [c_tab; c_sp; c_nl] t = false ->
  shown_in_line renders [] (lit "_" ++ t ++ lit "_") (em_tag t).
Proof. intros t U S. apply span_shown. apply (sp_em c_under t); auto. right. now left. Qed.
Print Assumptions C96_pair_refuted.
(** ... and a single one, wherever it stands, emphasises all the rest of the document, over empty lines and all blocks. *)
Theorem C96_single_refuted : forall ps a t, paragraphs ps -> lead a = true -> unmarked t -> starts_in [c_tab; c_sp; c_nl] t = false ->
  renders (before ps ++ a ++ lit "_" ++ t) (p_tags ps ++ p_tag (txt a ++ em_tag t)).
Proof. exact underscore_shown. Qed.
Print Assumptions C96_single_refuted.
Example C96_ex : unmarked (lit "case names.") /\ lead (lit "Use snake") = true /\
  renders (lit "Use snake_case." ++ [c_nl; c_nl] ++ lit "# Title") (lit "<p>Usesnake<em>case." ++ [c_nl; c_nl] ++ lit "# Title</em></p>" ++ [c_nl]).
Proof.
  split; [repeat split; vm_compute; intuition discriminate|]. split; [reflexivity|].
  apply (C96_single_refuted [] (lit "Use snake") (lit "case." ++ [c_nl; c_nl] ++ lit "# Title") (Forall_nil _) eq_refl); [|reflexivity].
  repeat split; vm_compute; intuition discriminate.
Qed.

(** ** C97: addresses in the text are links *)

(** Refuted for every address of ordinary characters: there is no link. *)
Theorem C97_address_refuted : forall named a u b, html5 named -> In (firstn 4 u) [lit "http"; lit "www."] -> ordinary (a ++ u ++ b) = true ->
  exists body, renders (a ++ u ++ b) (p_tag body) /\ ~ In c_lt body /\ decode named body = ink (a ++ u ++ b).
Proof.
  intros named a u b H U O. exists (txt (a ++ u ++ b)). split; [|split; [apply escaped_no_lt|now apply decode_txt]].
  apply ordinary_paragraph; [exact O|]. rewrite !has_ink_app'.
  destruct u as [|x u]; [destruct U as [K|[K|[]]]; discriminate K|].
  assert (X : visible x = true) by (destruct U as [K|[K|[]]]; injection K as <- _; reflexivity).
  cbn. rewrite X. cbn. now rewrite orb_true_r.
Qed.
Print Assumptions C97_address_refuted.
Example C97_ex : ordinary (lit "see http://a.org/b?c=d and www.e.org") = true.
Proof. reflexivity. Qed.
