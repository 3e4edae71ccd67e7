(** * C131 and C132: the characters of the page. *)
From Coq Require Import Ascii String.
From Verif Require Import Strings StringsFacts Parser Markdown SpecText TextFacts CharFacts.
Open Scope list_scope.

(** ** C131: every character of the page is from the document or belongs to the tags

    Those of tags, references and numbers are printable ASCII, tabs and line ends, and the arrow behind a footnote, which
    needs a bracket. *)
Theorem C131_characters : forall s h c, renders s h -> In c h -> In c s \/ printable c \/ (c = arrow /\ In c_lbrk s).
Proof. exact chars_from. Qed.
Print Assumptions C131_characters.
(** All three occur: a letter of the document, a sign of a tag that is not in it, the arrow. *)
Example C131_case : exists h, renders ([233%N] ++ lit " [^a]: b") h /\ In 233%N h /\ In c_lt h /\
  ~ In c_lt ([233%N] ++ lit " [^a]: b") /\ exists h', renders (lit "[^a]: b") h' /\ In arrow h'.
Proof.
  eexists. split; [exists 20; vm_compute; reflexivity|]. split; [vm_compute; tauto|]. split; [vm_compute; tauto|].
  split; [vm_compute; intuition discriminate|]. eexists. split; [exists 20; vm_compute; reflexivity|]. vm_compute; tauto.
Qed.
Example C131_not_printable : ~ printable 0%N /\ ~ printable c_cr /\ ~ printable 127%N /\ ~ printable 160%N /\ ~ printable arrow.
Proof. repeat split; (intros [[A B]|[A|A]]; [(now apply A) || (now apply B)|discriminate A..]). Qed.

(** ** C132: NUL is not on the page

    True of documents without it. *)
Theorem C132_none_partial : forall s h, ~ In nul s -> renders s h -> ~ In nul h.
Proof. exact no_nul. Qed.
Print Assumptions C132_none_partial.
Example C132_none_case : ~ In nul (lit "# A") /\ renders (lit "# A") (lit "<h1>A</h1>" ++ [c_nl]).
Proof. split; [vm_compute; intuition discriminate|]. exists 20. vm_compute. reflexivity. Qed.

(** Refuted for all ordinary paragraphs and headings in which it stands: it is not replaced. *)
Theorem C132_paragraph_refuted : forall ps p qs, paragraphs ps -> paragraph p = true -> paragraphs qs -> In nul p ->
  exists h, renders (before ps ++ p ++ after qs) h /\ In nul h.
Proof. exact nul_paragraph. Qed.
Print Assumptions C132_paragraph_refuted.
Example C132_paragraph_case : paragraph (lit "a" ++ [nul] ++ lit "b") = true /\ In nul (lit "a" ++ [nul] ++ lit "b") /\
  renders (lit "a" ++ [nul] ++ lit "b") (lit "<p>a" ++ [nul] ++ lit "b</p>" ++ [c_nl]).
Proof. split; [reflexivity|]. split; [vm_compute; tauto|]. exists 20. vm_compute. reflexivity. Qed.
Theorem C132_heading_refuted : forall ps n t e qs, paragraphs ps -> 1 <= n <= 6 -> heading_ordinary t -> heading_end e -> paragraphs qs -> In nul t ->
  exists h, renders (before ps ++ heading_src n t e ++ after qs) h /\ In nul h.
Proof. exact nul_heading. Qed.
Print Assumptions C132_heading_refuted.
Example C132_heading_case : heading_ordinary ([nul] ++ lit "A") /\ heading_end [] /\ In nul ([nul] ++ lit "A").
Proof.
  split; [|split; [apply he_blanks; intros x []|now left]].
  split; [reflexivity|]. split; [vm_compute; intuition discriminate|]. split; [vm_compute; intuition discriminate|]. now exists [nul], 65%N.
Qed.
