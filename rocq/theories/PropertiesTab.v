(** * C129: tabs and spaces between two words only separate them. *)
From Coq Require Import Ascii String.
From Verif Require Import Strings Parser Markdown MarkdownFacts MarkdownSound SpecText TextFacts TabFacts.
Open Scope list_scope.

(** True of one to three spaces behind a letter: nothing else is shown than with one. *)
Theorem C129_spaces_partial : forall ps qs a x, paragraphs ps -> paragraph (a ++ [x]) = true -> ascii_letter x ->
  forall n b, 1 <= n <= 3 -> trail b = true -> paragraphs qs -> starts_in blank_chars (b ++ after qs) = false ->
  renders (before ps ++ ((a ++ [x]) ++ crep n c_sp ++ b) ++ after qs) (p_tags ps ++ p_tag (txt (a ++ [x]) ++ txt b) ++ p_tags qs).
Proof. exact few_spaces. Qed.
Print Assumptions C129_spaces_partial.
Example C129_spaces_case : renders (lit "one   two") (lit "<p>onetwo</p>" ++ [c_nl]).
Proof.
  assert (L : ascii_letter 101%N) by (right; split; discriminate).
  exact (C129_spaces_partial [] [] (lit "on") 101%N (Forall_nil _) eq_refl L 3 (lit "two") ltac:(split; repeat constructor) eq_refl (Forall_nil _) eq_refl).
Qed.

(** Refuted for four spaces, a tab, and two spaces and a tab: the rest of the line is a code block inside the paragraph,
    to which the rest of the document belongs. *)
Theorem C129_code_refuted : forall ps qs a x, paragraphs ps -> paragraph (a ++ [x]) = true -> ascii_letter x ->
  forall ws t q, In ws [[c_tab]; lit "    "; lit "  " ++ [c_tab]] -> ~ In c_nl t -> ~ In c_hash t ->
  starts_in blank_chars t = false -> t <> [] -> trail q = true -> paragraphs qs ->
  renders (before ps ++ ((a ++ [x]) ++ ws ++ t ++ [c_nl] ++ q) ++ after qs)
    (p_tags ps ++ lit "<p>" ++ txt (a ++ [x]) ++ lit "<pre><code>" ++ escaped t ++ [c_nl] ++ txt q ++ lit "</p>" ++ [c_nl] ++ p_tags qs ++ lit "</code></pre>").
Proof. exact code_inside. Qed.
Print Assumptions C129_code_refuted.
Example C129_code_case : renders (lit "one" ++ [c_tab] ++ lit "two" ++ [c_nl; c_nl; c_nl] ++ lit "three" )
  (lit "<p>one<pre><code>two" ++ [c_nl] ++ lit "</p>" ++ [c_nl] ++ lit "<p>three</p>" ++ [c_nl] ++ lit "</code></pre>").
Proof.
  assert (L : ascii_letter 101%N) by (right; split; discriminate).
  assert (Q : paragraphs [lit "three"]) by (repeat constructor).
  exact (C129_code_refuted [] [lit "three"] (lit "on") 101%N (Forall_nil _) eq_refl L [c_tab] (lit "two") [] (or_introl eq_refl)
    ltac:(vm_compute; intuition discriminate) ltac:(vm_compute; intuition discriminate) eq_refl ltac:(easy) eq_refl Q).
Qed.

(** Refuted for five or more spaces: the rest of the line is shown with its markup as written, and the spaces stay. *)
Theorem C129_many_refuted : forall ps qs a x, paragraphs ps -> paragraph (a ++ [x]) = true -> ascii_letter x ->
  forall n t q, 5 <= n -> ~ In c_nl t -> literal t -> trail q = true -> paragraphs qs -> starts_in blank_chars (q ++ after qs) = false ->
  renders (before ps ++ ((a ++ [x]) ++ crep n c_sp ++ t ++ [c_nl] ++ q) ++ after qs)
    (p_tags ps ++ p_tag (txt (a ++ [x]) ++ crep n c_sp ++ escaped t ++ txt q) ++ p_tags qs).
Proof. exact many_spaces. Qed.
Print Assumptions C129_many_refuted.
Example C129_many_case : renders (lit "one     **two** three" ++ [c_nl] ++ lit "four")
  (lit "<p>one     **two** threefour</p>" ++ [c_nl]).
Proof.
  assert (L : ascii_letter 101%N) by (right; split; discriminate).
  assert (T : literal (lit "**two** three")).
  { split; [now exists c_star, (lit "*two** three")|]. split; [left|right]; vm_compute; intuition discriminate. }
  exact (C129_many_refuted [] [] (lit "on") 101%N (Forall_nil _) eq_refl L 5 (lit "**two** three") (lit "four") ltac:(repeat constructor)
    ltac:(vm_compute; intuition discriminate) T eq_refl (Forall_nil _) eq_refl).
Qed.
