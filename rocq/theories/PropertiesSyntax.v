(** * Properties: the limits and the variants of the constructs (C103 - C115).

    Vocabulary: SpecText.v ([ordinary] text, [paragraphs], [txt], [shown_in_line], [lead], [trail]), SpecBlocks.v (lists,
    quotes and tables) and SpecSyntax.v.  The negative theorems say what is shown instead, for all texts. *)
From Coq Require Import Ascii String.
From Verif Require Import Strings StringsFacts Token Iter Lexer Parser SanitizeFacts Markdown MarkdownFacts MarkdownSound
  Decode DecodeFacts SpecText TextFacts SpecBlocks BlockFacts SpecGfm GfmFacts SpecSyntax SyntaxFacts PropertiesText PropertiesBlocks.
Open Scope list_scope.

(** ** C103: a mark that is not closed is text, and nothing else *)

(** Refuted: everything behind a mark that is not closed, to the end of the document, is shown as it is written; behind an
    asterisk it is emphasised.  The text [t] is the rest of the document, paragraphs, lists and all. *)
Theorem C103_bracket_refuted : forall ps a t, paragraphs ps -> lead a = true -> ends_visible t -> ~ In c_rbrk t ->
  renders (before ps ++ a ++ lit "[" ++ t) (p_tags ps ++ p_tag (txt a ++ escaped (lit "[" ++ t))).
Proof. exact open_bracket. Qed.
Print Assumptions C103_bracket_refuted.
Theorem C103_strong_refuted : forall ps a ds t, paragraphs ps -> lead a = true -> In ds [lit "**"; lit "__"; lit "***"; lit "___"] -> unmarked t ->
  ends_visible t -> starts_in [c_tab; c_nl] t = false -> ~ infix (lit "[^") t \/ ~ In c_rbrk t ->
  renders (before ps ++ a ++ ds ++ t) (p_tags ps ++ p_tag (txt a ++ escaped (ds ++ t))).
Proof. exact open_strong. Qed.
Print Assumptions C103_strong_refuted.
Theorem C103_strike_refuted : forall ps a t, paragraphs ps -> lead a = true -> ~ In c_tilde t -> ends_visible t -> ~ infix (lit "[^") t \/ ~ In c_rbrk t ->
  renders (before ps ++ a ++ lit "~~" ++ t) (p_tags ps ++ p_tag (txt a ++ escaped (lit "~~" ++ t))).
Proof. exact open_strike. Qed.
Print Assumptions C103_strike_refuted.
Theorem C103_emphasis_refuted : forall ps a d t, paragraphs ps -> lead a = true -> In d star_under -> unmarked t -> starts_in [c_tab; c_sp; c_nl] t = false ->
  renders (before ps ++ a ++ [d] ++ t) (p_tags ps ++ p_tag (txt a ++ em_tag t)).
Proof. exact open_emphasis. Qed.
Print Assumptions C103_emphasis_refuted.
Theorem C103_ticks_refuted : forall ps a n t, paragraphs ps -> lead a = true -> 1 <= n -> n <> 3 -> starts_in [c_tick] t = false -> ~ infix (crep n c_tick) t ->
  ends_visible t -> ~ In c_rbrk t ->
  renders (before ps ++ a ++ crep n c_tick ++ t) (p_tags ps ++ p_tag (txt a ++ escaped (crep n c_tick ++ t))).
Proof. exact open_ticks. Qed.
Print Assumptions C103_ticks_refuted.
Theorem C103_fence_refuted : forall ps a t, paragraphs ps -> lead a = true -> ~ In c_tick t -> ends_visible t -> ~ In c_rbrk t ->
  renders (before ps ++ a ++ lit "```" ++ t) (p_tags ps ++ p_tag (txt a ++ escaped (lit "```" ++ t))).
Proof. exact open_fence. Qed.
Print Assumptions C103_fence_refuted.
Example C103_ex : lead (lit "see ") = true /\
  renders (lit "see [1, 2)" ++ [c_nl; c_nl] ++ lit "# Next" ++ [c_nl] ++ lit "- a")
    (lit "<p>see&lbrack;1, 2&#41;" ++ [c_nl; c_nl] ++ lit "# Next" ++ [c_nl] ++ lit "- a</p>" ++ [c_nl]).
Proof.
  split; [reflexivity|].
  assert (E : ends_visible (lit "1, 2)" ++ [c_nl; c_nl] ++ lit "# Next" ++ [c_nl] ++ lit "- a")).
  { now exists (lit "1, 2)" ++ [c_nl; c_nl] ++ lit "# Next" ++ [c_nl] ++ lit "- "), 97%N. }
  exact (C103_bracket_refuted [] (lit "see ") _ (Forall_nil _) eq_refl E ltac:(vm_compute; intuition discriminate)).
Qed.

(** ** C104: a construct inside a line ends with its paragraph *)

(** Refuted: emphasis, strong emphasis, text that is struck through and the text of links reach over empty lines. *)
Theorem C104_emphasis_refuted : forall d x y, In d star_under -> unmarked (broken x y) -> starts_in [c_tab; c_sp; c_nl] (broken x y) = false ->
  shown_in_line renders [] ([d] ++ broken x y ++ [d]) (em_tag (broken x y)).
Proof. intros d x y D U S. apply span_shown. now apply sp_em. Qed.
Print Assumptions C104_emphasis_refuted.
Theorem C104_strong_refuted : forall d x y, In d star_under -> unmarked (broken x y) -> starts_in [c_tab; c_nl] (broken x y) = false ->
  shown_in_line renders [] ([d; d] ++ broken x y ++ [d; d]) (strong_tag (broken x y)).
Proof. intros d x y D U S. apply span_shown. now apply sp_strong. Qed.
Print Assumptions C104_strong_refuted.
Theorem C104_strike_refuted : forall x y, ~ In c_tilde (broken x y) ->
  shown_in_line renders [] (lit "~~" ++ broken x y ++ lit "~~") (strike_tag (broken x y)).
Proof. intros x y T. apply span_shown. apply sp_strike; [|exact T]. unfold broken. now destruct x. Qed.
Print Assumptions C104_strike_refuted.
Theorem C104_link_refuted : forall x y u href, ~ In c_rbrk (broken x y) -> ~ In c_rpar u -> href_of u href ->
  shown_in_line renders [] (lit "[" ++ broken x y ++ lit "](" ++ u ++ lit ")") (a_tag href (escaped (broken x y))).
Proof. intros x y u href R P H. apply span_shown. now apply sp_link. Qed.
Print Assumptions C104_link_refuted.
Example C104_ex : unmarked (broken (lit "3 is prime") (lit "4 is not")) /\
  em_tag (broken (lit "a") (lit "b")) = lit "<em>a" ++ [c_nl; c_nl] ++ lit "b</em>" /\
  ~ In c_tilde (broken (lit "a") (lit "b")) /\ ~ In c_rbrk (broken (lit "a") (lit "b")).
Proof.
  split; [split; [easy|split; vm_compute; intuition discriminate]|]. split; [reflexivity|]. split; vm_compute; intuition discriminate.
Qed.

(** ** C105: an indented line continues its paragraph *)

(** Refuted: an indented line of a paragraph begins a code block inside it, which everything that follows belongs to. *)
Theorem C105_indented_refuted : forall ps p ws t q qs, paragraphs (p :: q :: ps ++ qs) -> In ws [[c_tab]; lit "    "; lit "  " ++ [c_tab]] ->
  ~ In c_nl t -> ~ In c_hash t -> starts_in blank_chars t = false -> t <> [] ->
  renders (before ps ++ (p ++ [c_nl] ++ ws ++ t ++ [c_nl] ++ q) ++ after qs)
    (p_tags ps ++ lit "<p>" ++ txt p ++ lit "<pre><code>" ++ escaped t ++ [c_nl] ++ txt q ++ lit "</p>" ++ [c_nl] ++ p_tags qs ++ lit "</code></pre>").
Proof. exact indented_behind. Qed.
Print Assumptions C105_indented_refuted.
Example C105_ex : paragraphs [lit "one"; lit "three"; lit "four"] /\
  renders (lit "one" ++ [c_nl] ++ lit "    *two*" ++ [c_nl] ++ lit "three" ++ [c_nl; c_nl] ++ lit "four")
    (lit "<p>one<pre><code>*two*" ++ [c_nl] ++ lit "three</p>" ++ [c_nl] ++ lit "<p>four</p>" ++ [c_nl] ++ lit "</code></pre>").
Proof.
  assert (P : paragraphs [lit "one"; lit "three"; lit "four"]) by (repeat constructor).
  split; [exact P|].
  exact (C105_indented_refuted [] (lit "one") (lit "    ") (lit "*two*") (lit "three") [lit "four"] P (or_intror (or_introl eq_refl))
    ltac:(vm_compute; intuition discriminate) ltac:(vm_compute; intuition discriminate) eq_refl ltac:(easy)).
Qed.

(** ** C106: a numbered list begins with its number *)

(** Refuted: lists of the same texts with whatever numbers look the same, and a number with a parenthesis is text. *)
Theorem C106_start_refuted : forall ps is is' k, paragraphs ps -> ol_items is -> ol_items is' -> map snd is = map snd is' ->
  exists out, renders (before ps ++ lines (map ol_line is) ++ crep k c_nl) out /\ renders (before ps ++ lines (map ol_line is') ++ crep k c_nl) out.
Proof.
  intros ps is is' k P I I' E. exists (p_tags ps ++ ol_tag (map (fun i => escaped (snd i)) is)). split; [now apply ol_shown|].
  rewrite <- (map_map snd escaped), E, map_map. now apply ol_shown.
Qed.
Print Assumptions C106_start_refuted.
Theorem C106_parenthesis_refuted : forall ps d t qs, paragraphs ps -> is_digit d = true -> paragraph t = true -> starts_in [c_sp] t = false -> paragraphs qs ->
  renders (before ps ++ ([d] ++ lit ") " ++ t) ++ after qs) (p_tags ps ++ p_tag ([d] ++ escaped [c_rpar] ++ txt t) ++ p_tags qs).
Proof. exact number_paren. Qed.
Print Assumptions C106_parenthesis_refuted.
Example C106_ex : ol_items [(51%N, lit "three"); (52%N, lit "four")] /\ ol_items [(49%N, lit "three"); (49%N, lit "four")] /\
  lines (map ol_line [(51%N, lit "three"); (52%N, lit "four")]) = lit "3. three" ++ [c_nl] ++ lit "4. four" /\
  renders (lit "1) first") (lit "<p>1&#41;first</p>" ++ [c_nl]).
Proof.
  split; [split; [easy|]; repeat constructor; vm_compute; intuition discriminate|].
  split; [split; [easy|]; repeat constructor; vm_compute; intuition discriminate|]. split; [reflexivity|].
  exact (C106_parenthesis_refuted [] 49%N (lit "first") [] (Forall_nil _) eq_refl eq_refl eq_refl (Forall_nil _)).
Qed.

(** ** C107: constructs inside lines are rendered in all items and headings *)

(** Refuted: in numbered items, task items and the headings of tables the marks are shown. *)
Theorem C107_numbered_refuted : forall ps d a t b, paragraphs ps -> is_digit d = true -> ~ In c_nl (a ++ lit "**" ++ t ++ lit "**" ++ b) ->
  renders (before ps ++ [d] ++ lit ". " ++ a ++ lit "**" ++ t ++ lit "**" ++ b)
    (p_tags ps ++ ol_tag [escaped (a ++ lit "**" ++ t ++ lit "**" ++ b)]).
Proof.
  intros ps d a t b P D N. assert (I : ol_items [(d, a ++ lit "**" ++ t ++ lit "**" ++ b)]) by (split; [easy|]; constructor; [now split|constructor]).
  pose proof (ol_shown ps _ 0 P I) as K. cbn [crep repeat] in K. rewrite app_nil_r in K. exact K.
Qed.
Print Assumptions C107_numbered_refuted.
Theorem C107_task_refuted : forall ps m x a t b, paragraphs ps -> In m [c_minus; c_plus] -> ~ In c_nl (a ++ lit "**" ++ t ++ lit "**" ++ b) ->
  renders (before ps ++ task_line (m, x, a ++ lit "**" ++ t ++ lit "**" ++ b))
    (p_tags ps ++ task_tag [(m, x, a ++ lit "**" ++ t ++ lit "**" ++ b)]) /\
  infix (escaped (a ++ lit "**" ++ t ++ lit "**" ++ b)) (task_tag [(m, x, a ++ lit "**" ++ t ++ lit "**" ++ b)]).
Proof.
  intros ps m x a t b P M N. assert (I : task_items [(m, x, a ++ lit "**" ++ t ++ lit "**" ++ b)]) by (split; [easy|]; constructor; [now split|constructor]).
  pose proof (task_shown ps _ 0 P I) as K. cbn [crep repeat] in K. rewrite app_nil_r in K. split; [exact K|apply task_infix].
Qed.
Print Assumptions C107_task_refuted.
Theorem C107_heading_refuted : forall ps heads delims rows k qs, paragraphs ps -> paragraphs qs -> table_ok heads delims rows -> Forall (Forall ordinary_cell) rows ->
  exists out, renders (before ps ++ table_src heads delims rows ++ follow k qs) out /\
    infix (concat (map (fun p => th_tag (fst p) (snd p)) (combine (map align_of delims) heads))) out.
Proof.
  intros ps heads delims rows k qs P Q T O. eexists. split; [now apply C23_table|]. apply infix_nl, infix_behind, infix_before, heads_infix.
Qed.
Print Assumptions C107_heading_refuted.
Example C107_ex :
  renders (lit "1. a **b** c") (lit "<ol>" ++ [c_nl] ++ lit "<li>" ++ [c_nl] ++ lit "a **b** c</li>" ++ [c_nl] ++ lit "</ol>" ++ [c_nl]) /\
  th_tag AlLeft (lit " *x* ") = [c_tab; c_tab] ++ lit "<th style=""text-align: left"">*x*</th>" /\
  table_ok [lit " *x* "] [lit "---"] [[lit "y"]].
Proof.
  split; [exact (C107_numbered_refuted [] 49%N (lit "a ") (lit "b") (lit " c") (Forall_nil _) eq_refl ltac:(vm_compute; intuition discriminate))|].
  split; [reflexivity|]. repeat split; try easy; repeat constructor; try easy; vm_compute; intuition discriminate.
Qed.

(** ** C108: variants of tables *)

(** Refuted: rows without bars around them are no table; a bar in a cell, even escaped, makes the whole table text; a table
    with an empty cell in its head or in its first row is not shown at all; an empty cell in another row is left out, and
    the cells behind it move to the left. *)
Theorem C108_bare_refuted : forall ps a t rows, paragraphs ps -> lead a = true -> has_ink a = true -> starts_in [c_nl] (rev a) = false ->
  ~ In c_nl t -> ~ In c_lbrk t -> Forall bare_ok rows ->
  renders (before ps ++ concat (map bare_row ((a, txt a, t) :: rows))) (p_tags ps ++ p_tag (concat (map bare_html ((a, txt a, t) :: rows)))).
Proof. exact bare_table. Qed.
Print Assumptions C108_bare_refuted.
Theorem C108_escaped_bar_refuted : forall ps rows pre x y post, paragraphs ps -> Forall (Forall bar_free) rows -> rows <> [] -> bar_free x -> bar_free y ->
  Forall bar_free (pre ++ post) -> Forall (fun row => length row = S (length (pre ++ post))) rows ->
  ~ In c_lbrk (concat (concat rows)) -> ~ In c_lbrk (concat (pre ++ [x; y] ++ post)) ->
  renders (before ps ++ lines (map row_src (rows ++ [pre ++ [x ++ [c_bslash; c_pipe] ++ y] ++ post])))
    (p_tags ps ++ p_tag (escaped (lines (map row_src (rows ++ [pre ++ [x ++ [c_bslash; c_pipe] ++ y] ++ post]))))).
Proof. exact escaped_bar. Qed.
Print Assumptions C108_escaped_bar_refuted.
Theorem C108_empty_cell_refuted : forall ps heads delims row rows k qs, paragraphs ps -> paragraphs qs -> 
  length delims = length heads -> Forall (fun row => length row = length heads) (row :: rows) ->
  Forall bar_free delims -> Forall (Forall cell_src) (heads :: row :: rows) -> Forall (Forall ordinary_cell) (row :: rows) ->
  (In [] heads /\ Forall bar_free row) \/ (Forall bar_free heads /\ In [] row) ->
  renders (before ps ++ table_src heads delims (row :: rows) ++ follow k qs) (with_nl (p_tags ps ++ p_tags qs)).
Proof. exact gap_vanishes. Qed.
Print Assumptions C108_empty_cell_refuted.
Theorem C108_later_rows_refuted : forall ps heads delims row rows k qs, paragraphs ps -> paragraphs qs -> 
  length delims = length heads -> Forall (fun row => length row = length heads) (row :: rows) ->
  Forall (Forall bar_free) [heads; delims; row] -> Forall (Forall cell_src) rows -> Forall (Forall ordinary_cell) (row :: rows) ->
  renders (before ps ++ table_src heads delims (row :: rows) ++ follow k qs)
    (with_nl (p_tags ps ++ table_tag (map align_of delims) heads (shown_cells (row :: rows)) ++ p_tags qs)).
Proof. exact gap_moves. Qed.
Print Assumptions C108_later_rows_refuted.
Example C108_ex :
  renders (lit "x | y" ++ [c_nl] ++ lit "--|--" ++ [c_nl] ++ lit "1 | 2" ++ [c_nl])
    (lit "<p>x&mid; y--&mid;--1&mid; 2</p>" ++ [c_nl]) /\
  renders (lit "before" ++ [c_nl; c_nl] ++ lit "|x|y|" ++ [c_nl] ++ lit "|--|--|" ++ [c_nl] ++ lit "||2|" ++ [c_nl] ++ lit "|3|4|" ++ [c_nl])
    (lit "<p>before</p>" ++ [c_nl]) /\
  shown_cells [[lit "1"; lit "2"]; [[]; lit "4"]] = [[lit "1"; lit "2"]; [lit "4"]].
Proof.
  split; [|split; [|reflexivity]].
  - refine (C108_bare_refuted [] (lit "x ") (lit " y") [(lit "--", lit "--", lit "--"); (lit "1 ", lit "1", lit " 2")] (Forall_nil _) eq_refl eq_refl eq_refl
      ltac:(vm_compute; intuition discriminate) ltac:(vm_compute; intuition discriminate) _).
    constructor; [|constructor; [|constructor]]; (split; [|split; vm_compute; intuition discriminate]).
    + right. now split.
    + left. now repeat split.
  - refine (C108_empty_cell_refuted [lit "before"] [lit "x"; lit "y"] [lit "--"; lit "--"] [[]; lit "2"] [[lit "3"; lit "4"]] 0 [] _ (Forall_nil _) eq_refl _ _ _ _ _).
    + repeat constructor.
    + repeat constructor.
    + repeat constructor; try easy; vm_compute; intuition discriminate.
    + repeat constructor; vm_compute; intuition discriminate.
    + repeat constructor; vm_compute; intuition discriminate.
    + right. split; [|now left]. repeat constructor; try easy; vm_compute; intuition discriminate.
Qed.

(** ** C109: tildes *)

(** Refuted: single tildes strike nothing, and three of them begin no code block: all of them are text. *)
Theorem C109_tildes_refuted : forall ps n m a t b, paragraphs ps -> 1 <= n -> n <> 2 -> 1 <= m -> m <> 2 -> lead a = true ->
  ordinary t = true -> has_ink t = true -> starts_in [c_bang] (rev t) = false -> trail b = true ->
  renders (before ps ++ a ++ crep n c_tilde ++ t ++ crep m c_tilde ++ b)
    (p_tags ps ++ p_tag (txt a ++ escaped (crep n c_tilde) ++ txt t ++ escaped (crep m c_tilde) ++ txt b)).
Proof. exact tildes_around. Qed.
Print Assumptions C109_tildes_refuted.
Example C109_ex : renders (lit "a ~b~ c") (lit "<p>a&tilde;b&tilde;c</p>" ++ [c_nl]) /\
  renders (lit "~~~" ++ [c_nl] ++ lit "let x" ++ [c_nl] ++ lit "~~~") (lit "<p>&tilde;&tilde;&tilde;letx&tilde;&tilde;&tilde;</p>" ++ [c_nl]).
Proof.
  split.
  - exact (C109_tildes_refuted [] 1 1 (lit "a ") (lit "b") (lit " c") (Forall_nil _) ltac:(lia) ltac:(lia) ltac:(lia) ltac:(lia) eq_refl eq_refl eq_refl eq_refl eq_refl).
  - exact (C109_tildes_refuted [] 3 3 [] ([c_nl] ++ lit "let x" ++ [c_nl]) [] (Forall_nil _) ltac:(lia) ltac:(lia) ltac:(lia) ltac:(lia) eq_refl eq_refl eq_refl eq_refl eq_refl).
Qed.

(** ** C110: destinations with parentheses and in angle brackets *)

(** Refuted: the destination ends with the first closing parenthesis, and angle brackets become part of it. *)
Theorem C110_parentheses_refuted : forall t u v href, ~ In c_rbrk t -> ~ In c_rpar (u ++ lit "(" ++ v) -> href_of (u ++ lit "(" ++ v) href ->
  shown_in_line renders [] (lit "[" ++ t ++ lit "](" ++ (u ++ lit "(" ++ v ++ lit ")") ++ lit ")") (a_tag href (escaped t) ++ escaped [c_rpar]).
Proof. exact parens_shown. Qed.
Print Assumptions C110_parentheses_refuted.
Theorem C110_angle_refuted : forall t u, ~ In c_rbrk t -> ~ In c_rpar u -> schemeless u -> 
  shown_in_line renders [] (lit "[" ++ t ++ lit "](<" ++ u ++ lit ">)") (a_tag (lit "http:<" ++ encoded u ++ lit ">") (escaped t)).
Proof. exact angle_dest. Qed.
Print Assumptions C110_angle_refuted.
Example C110_ex : href_of (lit "/wiki/Rust" ++ lit "(" ++ lit "language") (lit "http:" ++ encoded (lit "/wiki/Rust(language")) /\ schemeless (lit "a/b").
Proof.
  split; [|split; [reflexivity|split; vm_compute; intuition discriminate]].
  apply (href_rel (lit "/wiki/Rust(language")). split; [reflexivity|split; vm_compute; intuition discriminate].
Qed.

(** ** C111: the items of task lists may begin with any bullet *)

(** Refuted: behind an asterisk (or an underscore, which should not begin an item) the box is shown as text. *)
Theorem C111_star_refuted : forall ps m k t, paragraphs ps -> In m star_under -> In k [lit "[ ]"; lit "[x]"; lit "[X]"] -> trail t = true -> ~ In c_nl t ->
  starts_in [c_sp] t = false ->
  renders (before ps ++ [m; c_sp] ++ k ++ [c_sp] ++ t) (p_tags ps ++ ul_tag [p_tag (escaped k ++ txt t)]).
Proof. exact star_task. Qed.
Print Assumptions C111_star_refuted.
(** Hyphens and plus signs are C22. *)
Theorem C111_hyphen_partial : forall ps m x t, paragraphs ps -> In m [c_minus; c_plus] -> ~ In c_nl t ->
  renders (before ps ++ task_line (m, x, t)) (p_tags ps ++ task_tag [(m, x, t)]).
Proof.
  intros ps m x t P M N. assert (I : task_items [(m, x, t)]) by (split; [easy|]; constructor; [now split|constructor]).
  pose proof (task_shown ps _ 0 P I) as K. cbn [crep repeat] in K. rewrite app_nil_r in K. exact K.
Qed.
Print Assumptions C111_hyphen_partial.
Example C111_ex : renders (lit "* [x] done") (lit "<ul>" ++ [c_nl] ++ lit "<li>" ++ [c_nl] ++ lit "<p>&lbrack;x&rbrack;done</p>" ++ [c_nl] ++ lit "</li>" ++ [c_nl] ++ lit "</ul>" ++ [c_nl]).
Proof.
  exact (C111_star_refuted [] c_star (lit "[x]") (lit "done") (Forall_nil _) (or_introl eq_refl) (or_intror (or_introl eq_refl)) eq_refl
    ltac:(vm_compute; intuition discriminate) eq_refl).
Qed.

(** ** C112: only hyphens, asterisks and underscores make a rule *)

(** Refuted: plus signs make one, too, also among hyphens. *)
Theorem C112_plus_refuted : forall s, incl s [c_minus; c_plus] -> In c_plus s -> 3 <= length s -> shown_as_block renders s (lit "<hr />" ++ [c_nl]).
Proof. intros s I _ L. apply C36_rule_partial. now left. Qed.
Print Assumptions C112_plus_refuted.
(** Signs of equality do not. *)
Theorem C112_equals_partial : forall ps n qs, paragraphs ps -> 1 <= n -> paragraphs qs ->
  renders (before ps ++ crep n c_equals ++ after qs) (p_tags ps ++ p_tag (crep n c_equals) ++ p_tags qs).
Proof.
  intros ps n qs P N Q. rewrite <- (equals_txt n) at 2. apply paragraphs_shown; auto. unfold paragraph. rewrite equals_ordinary.
  destruct n as [|n]; [lia|]. rewrite crep_snoc at 3. rewrite rev_app_distr. reflexivity.
Qed.
Print Assumptions C112_equals_partial.
Example C112_ex : incl (lit "+-+") [c_minus; c_plus] /\ In c_plus (lit "+-+") /\ renders (lit "+-+") (lit "<hr />" ++ [c_nl]).
Proof.
  assert (I : incl (lit "+-+") [c_minus; c_plus]) by (intros x; vm_compute; tauto).
  split; [exact I|]. split; [now left|].
  pose proof (C112_plus_refuted (lit "+-+") I (or_introl eq_refl) ltac:(vm_compute; lia) [] [] (Forall_nil _) (Forall_nil _)) as K. exact K.
Qed.

(** ** C113: the messages of the program are not shown *)

(** Refuted: a footnote behind an exclamation mark shows one (a backslash at the end another, see C32). *)
Theorem C113_message_refuted : forall ps a i t b qs, paragraphs ps -> paragraphs qs -> lead a = true -> trail b = true -> starts_in [c_sp] b = false ->
  ~ In c_rbrk i -> existsb is_whitespace i = false -> ~ In c_nl t ->
  renders (before ps ++ (a ++ lit "![^" ++ i ++ lit "]:" ++ t ++ [c_nl] ++ b) ++ after qs)
    (p_tags ps ++ p_tag (txt a ++ lit "Non link token returned from lex_links" ++ txt b) ++ p_tags qs).
Proof. exact message_shown. Qed.
Print Assumptions C113_message_refuted.
Example C113_ex : renders (lit "Done![^1]: really" ++ [c_nl] ++ lit "ok") (lit "<p>DoneNon link token returned from lex_linksok</p>" ++ [c_nl]).
Proof.
  exact (C113_message_refuted [] (lit "Done") (lit "1") (lit " really") (lit "ok") [] (Forall_nil _) (Forall_nil _) eq_refl eq_refl eq_refl
    ltac:(vm_compute; intuition discriminate) eq_refl ltac:(vm_compute; intuition discriminate)).
Qed.

(** ** C114: a line of text behind an item or a quotation continues it *)

(** Refuted: it begins a paragraph behind the quotation; in lists it stands between the items and the end of the list, the
    list is closed behind its first character. *)
Theorem C114_quote_refuted : forall ps t q qs, paragraphs ps -> ordinary t = true -> has_ink t = true -> ~ In c_nl t -> starts_in [c_sp] t = false -> paragraphs (q :: qs) ->
  renders (before ps ++ lit "> " ++ t ++ [c_nl] ++ q ++ after qs)
    (p_tags ps ++ bq_open ++ [c_nl] ++ p_tag (escaped (escaped (ink t))) ++ bq_close ++ p_tags (q :: qs)).
Proof. exact lazy_quote. Qed.
Print Assumptions C114_quote_refuted.
Theorem C114_bullet_refuted : forall ps is x y t qs, paragraphs ps -> ul_items is ->
  plain x = true -> plain y = true -> visible x = true -> visible y = true -> trail t = true -> paragraphs qs ->
  renders (before ps ++ lines (map ul_line is) ++ [c_nl] ++ (x :: y :: t) ++ after qs)
    (p_tags ps ++ lit "<ul>" ++ [c_nl] ++ concat (map (fun i => li_tag (p_tag (snd i))) is)
     ++ lit "<p>" ++ esc x ++ lit "</ul>" ++ [c_nl] ++ esc y ++ txt t ++ lit "</p>" ++ [c_nl] ++ p_tags qs).
Proof. intros ps is x y t qs P I. exact (ul_then_text ps is 1 x y t qs P I (le_n 1)). Qed.
Print Assumptions C114_bullet_refuted.
Theorem C114_numbered_refuted : forall ps is x y t qs, paragraphs ps -> ol_items is ->
  plain x = true -> plain y = true -> visible x = true -> visible y = true -> trail t = true -> paragraphs qs ->
  renders (before ps ++ lines (map ol_line is) ++ [c_nl] ++ (x :: y :: t) ++ after qs)
    (p_tags ps ++ lit "<ol>" ++ [c_nl] ++ concat (map (fun i => li_tag (escaped (snd i))) is)
     ++ lit "<p>" ++ esc x ++ lit "</ol>" ++ [c_nl] ++ esc y ++ txt t ++ lit "</p>" ++ [c_nl] ++ p_tags qs).
Proof. intros ps is x y t qs P I. exact (ol_then_text ps is 1 x y t qs P I (le_n 1)). Qed.
Print Assumptions C114_numbered_refuted.
Example C114_ex :
  renders (lit "> one" ++ [c_nl] ++ lit "two") (lit "<blockquote>" ++ [c_nl] ++ lit "<p>one</p>" ++ [c_nl] ++ lit "</blockquote><p>two</p>" ++ [c_nl]) /\
  renders (lit "1. one" ++ [c_nl] ++ lit "two")
    (lit "<ol>" ++ [c_nl] ++ lit "<li>" ++ [c_nl] ++ lit "one</li>" ++ [c_nl] ++ lit "<p>t</ol>" ++ [c_nl] ++ lit "wo</p>" ++ [c_nl]).
Proof.
  split.
  - exact (C114_quote_refuted [] (lit "one") (lit "two") [] (Forall_nil _) eq_refl eq_refl ltac:(vm_compute; intuition discriminate) eq_refl ltac:(repeat constructor)).
  - assert (I : ol_items [(49%N, lit "one")]) by (split; [easy|]; repeat constructor; vm_compute; intuition discriminate).
    exact (C114_numbered_refuted [] [(49%N, lit "one")] 116%N 119%N (lit "o") [] (Forall_nil _) I eq_refl eq_refl eq_refl eq_refl eq_refl (Forall_nil _)).
Qed.

(** ** C115: a backslash at the end of a line is a line break *)

(** Refuted: nothing is shown. *)
Theorem C115_backslash_refuted : forall ps a b qs, paragraphs ps -> paragraphs qs -> lead a = true -> has_ink a = true -> trail b = true ->
  renders (before ps ++ (a ++ [c_bslash; c_nl] ++ b) ++ after qs) (p_tags ps ++ p_tag (txt a ++ txt b) ++ p_tags qs).
Proof. exact backslash_break. Qed.
Print Assumptions C115_backslash_refuted.
Example C115_ex : renders (lit "one\" ++ [c_nl] ++ lit "two") (lit "<p>onetwo</p>" ++ [c_nl]).
Proof. exact (C115_backslash_refuted [] (lit "one") (lit "two") [] (Forall_nil _) (Forall_nil _) eq_refl eq_refl eq_refl). Qed.
