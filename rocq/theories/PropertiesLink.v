(** * Properties: the links of footnote references (C28, C133-C138).

    Vocabulary: Html.v (safe html), SpecText.v (contexts), LinkNotes.v ([noted]: a
    paragraph with a reference, and the note). *)
From Coq Require Import Ascii String.
From Verif Require Import Strings StringsFacts Token Iter Lexer Parser Html SafeClasses
  Markdown SpecText SpecBlocks BlockFacts LinkNotes.
Open Scope list_scope.

(** ** C28: a reference links to the id of its footnote *)
(** All ids of a page are that of the first footnote, or those of references. *)
Theorem C28_ids_partial : forall s h, renders s h -> harmless s -> safe_html other_id h.
Proof. exact harmless_ids. Qed.
Print Assumptions C28_ids_partial.
(** Refuted: unless its name is shown as "1", the reference to a note which stands right behind
    it is a link to an id which nothing on the page has. *)
Theorem C28_link_refuted : forall a i b t, lead a = true -> starts_in [c_sp] a = false -> trail b = true ->
  starts_in (lit ":(*_~") b = false ->
  ~ In c_rbrk i -> existsb is_whitespace i = false -> ~ infix (lit "[^") i -> ~ In c_nl t ->
  free (lit "<""") (a ++ i ++ b ++ t) -> escaped i <> lit "1" ->
  exists h, renders (noted a i b t) h /\ infix (lit "<a href=""#fn:" ++ escaped i ++ lit """ ") h /\
    safe_html (on_id (lit "fn:" ++ escaped i)) h.
Proof. exact no_target. Qed.
Print Assumptions C28_link_refuted.
Example C28_link_ex : lead (lit "See") = true /\ trail (lit ".") = true /\ free (lit "<""") (lit "See" ++ lit "2" ++ lit "." ++ lit " The note") /\
  noted (lit "See") (lit "2") (lit ".") (lit " The note") = lit "See[^2]." ++ [c_nl; c_nl] ++ lit "[^2]: The note" ++ [c_nl] /\
  harmless (noted (lit "See") (lit "2") (lit ".") (lit " The note")) /\
  ~ safe_html (on_id (lit "fn:2")) (lit "<li id=""fn:2"" role=""doc-endnote"">").
Proof.
  split; [reflexivity|]. split; [reflexivity|]. split; [intros c [<-|[<-|[]]]; vm_compute; intuition discriminate|].
  split; [reflexivity|]. split; [apply harmless_checked; vm_compute; reflexivity|].
  intros S. apply HtmlFacts.run_complete in S. vm_compute in S. discriminate S.
Qed.

(** ** C133: the link behind a footnote *)
(** It leads to the reference of the note, of which there is one: the page is a part
    with one element that has the id, and a part with no reference and one link to it.
    Missing: other documents, see below. *)
Theorem C133_back_partial : forall a i b t, lead a = true -> starts_in [c_sp] a = false -> trail b = true ->
  starts_in (lit ":(*_~") b = false ->
  ~ In c_rbrk i -> existsb is_whitespace i = false -> ~ infix (lit "[^") i -> ~ In c_nl t ->
  exists h1 h2, renders (noted a i b t) (h1 ++ h2) /\ occurrences (noteref_id i) h1 = 1 /\
    occurrences (lit "<sup ") h2 = 0 /\ occurrences (lit "<a href=""#fnref:" ++ escaped i ++ [c_quot]) h2 = 1.
Proof. exact link_back. Qed.
Print Assumptions C133_back_partial.
(** Refuted for every text with more than one reference to a note: all of them have
    the same id. *)
Theorem C133_same_refuted : forall xs i b, xs <> [] -> Forall ref_ok xs -> Forall (fun x => snd x = i) xs -> trail b = true ->
  starts_in [c_colon; c_lpar] b = false ->
  exists h, renders (refs_text xs b) h /\ occurrences (noteref_id i) h = length xs.
Proof. exact same_ids. Qed.
Print Assumptions C133_same_refuted.
Example C133_ex : noteref_id (lit "a&b") = lit "<sup id=""fnref:a&amp;b""" /\
  Forall ref_ok [(lit "one", lit "a"); (lit " two", lit "a")] /\ Forall (fun x => snd x = lit "a") [(lit "one", lit "a"); (lit " two", lit "a")] /\
  refs_text [(lit "one", lit "a"); (lit " two", lit "a")] (lit ".") = lit "one[^a] two[^a].".
Proof.
  split; [reflexivity|]. split; [|split; [repeat constructor | reflexivity]].
  repeat constructor; try (vm_compute; intuition discriminate); rewrite <- contains_iff; vm_compute; discriminate.
Qed.

(** ** C134: references to footnotes that do not exist *)
(** Refuted for every paragraph with one reference and nothing else in the document:
    there is a link, to an id which nothing has (unless the name is shown as "1", where
    the same is true, as there are no items at all). *)
Theorem C134_undefined_refuted : forall a i b, lead a = true -> trail b = true -> starts_in (lit ":(*_~") b = false ->
  note_name i -> free (lit "<""") (a ++ i ++ b) ->
  exists h, renders (a ++ lit "[^" ++ i ++ lit "]" ++ b) h /\ infix (noteref_tag i) h /\
    (escaped i <> lit "1" -> safe_html (on_id (lit "fn:" ++ escaped i)) h) /\ ~ infix (lit "<li") h.
Proof. exact lone_target. Qed.
Print Assumptions C134_undefined_refuted.
Example C134_ex : lead (lit "Without digits ") = true /\ note_name (lit "0-9") /\
  free (lit "<""") (lit "Without digits " ++ lit "0-9" ++ lit " it is") /\
  lit "Without digits " ++ lit "[^" ++ lit "0-9" ++ lit "]" ++ lit " it is" = lit "Without digits [^0-9] it is".
Proof.
  split; [reflexivity|]. split; [|split; [|reflexivity]].
  - split; [vm_compute; intuition discriminate|]. rewrite <- contains_iff; vm_compute; discriminate.
  - intros c [<-|[<-|[]]]; vm_compute; intuition discriminate.
Qed.

(** ** C135: Markdown in footnotes *)
(** Refuted for every sequence of paragraphs and notes: the text of each note is shown
    as it is written, and nothing in the list of notes is emphasised, code, an image, a
    list, a line break or a heading. *)
Theorem C135_markup_refuted : forall xs, Forall chunk_ok xs ->
  exists h1 h2, renders (concat (map chunk_src xs)) (h1 ++ h2) /\
    (forall i t k, In (CNote i t k) xs -> infix (lit "<p>" ++ escaped (trim t) ++ lit "<a href=""#fnref:") h2) /\
    Forall (fun tg => ~ infix tg h2) markup_tags.
Proof. exact notes_as_written. Qed.
Print Assumptions C135_markup_refuted.
Example C135_ex : let xs := [CNote (lit "a") (lit " See *this* and `that`.") 0] in
  Forall chunk_ok xs /\ concat (map chunk_src xs) = lit "[^a]: See *this* and `that`." ++ [c_nl] /\
  escaped (trim (lit " See *this* and `that`.")) = lit "See *this* and `that`.".
Proof.
  split; [|split; reflexivity]. repeat constructor; vm_compute; intuition discriminate.
Qed.

(** ** C136: a footnote begins with its line *)
(** Refuted for every text in front of it on its line: the rest of the line is taken
    out of the paragraph, and is a footnote. *)
Theorem C136_line_refuted : forall ps a i t b qs, paragraphs ps -> paragraphs qs -> lead a = true -> has_ink a = true ->
  starts_in [c_nl] (rev a) = false ->
  ~ In c_rbrk i -> existsb is_whitespace i = false -> no_nl t ->
  paragraph b = true -> starts_in blank_chars b = false ->
  renders (before ps ++ a ++ lit "[^" ++ i ++ lit "]:" ++ t ++ [c_nl] ++ b ++ after qs)
    (p_tags ps ++ p_tag (txt a ++ txt b) ++ p_tags qs ++ notes_html [(i, trim t)]).
Proof. intros ps a i t b qs P Q A H _. now apply note_in_line. Qed.
Print Assumptions C136_line_refuted.
Example C136_ex : lead (lit "Read ") = true /\ has_ink (lit "Read ") = true /\ starts_in [c_nl] (rev (lit "Read ")) = false /\
  no_nl (lit " first the preface") /\ paragraph (lit "and then the rest") = true /\
  before [] ++ lit "Read " ++ lit "[^" ++ lit "1" ++ lit "]:" ++ lit " first the preface" ++ [c_nl] ++ lit "and then the rest" ++ after []
    = lit "Read [^1]: first the preface" ++ [c_nl] ++ lit "and then the rest" /\
  p_tag (txt (lit "Read ") ++ txt (lit "and then the rest")) = lit "<p>Readandthentherest</p>" ++ [c_nl].
Proof. repeat split; vm_compute; intuition discriminate. Qed.

(** ** C137: what is not recognised as a footnote is text *)
(** Refuted for every name with blanks, and for every note whose next line is indented
    by spaces, but not by two or four: the two characters in front of the name are lost,
    and the rest is on the page as it stands in the document, not escaped. *)
Theorem C137_raw_refuted : forall i t x k, ~ In c_rbrk i -> ~ In c_nl t -> ~ infix (lit "[^") (i ++ lit "]:" ++ t ++ [x]) ->
  is_whitespace x = false -> x <> c_rbrk -> broken i k ->
  shown_in_line renders [c_sp] (broken_note i (t ++ [x]) k) (i ++ lit "]:" ++ t ++ [x]).
Proof. exact broken_shown. Qed.
Print Assumptions C137_raw_refuted.
(** So every script can be put on a page. *)
Theorem C137_script_refuted : forall c, ~ In c_nl c -> ~ In c_lbrk c ->
  renders (lit "[^my note]: <script>" ++ c ++ lit "</script>" ++ [c_nl])
    (p_tag (lit "my note]: <script>" ++ c ++ lit "</script>")).
Proof. exact broken_script. Qed.
Print Assumptions C137_script_refuted.
Example C137_ex : broken (lit "a") 3 /\ broken (lit "a b") 0 /\
  broken_note (lit "a") (lit " one <b" ++ lit ">") 3 ++ lit "two" = lit "[^a]: one <b>" ++ [c_nl] ++ lit "   two" /\
  ~ infix (lit "[^") (lit "a" ++ lit "]:" ++ lit " one <b" ++ lit ">") /\
  lit "a" ++ lit "]:" ++ lit " one <b" ++ lit ">" <> escaped (lit "a" ++ lit "]:" ++ lit " one <b" ++ lit ">").
Proof.
  split; [right; lia|]. split; [left; now split|]. split; [reflexivity|]. split; [rewrite <- contains_iff; vm_compute; discriminate|].
  vm_compute. discriminate.
Qed.

(** ** C138: which footnotes are listed *)
(** Refuted for all documents of notes only: though nothing refers to them, all are
    listed, also if several of them have the same name. *)
Theorem C138_listed_refuted : forall xs, Forall chunk_ok xs -> Forall is_note xs ->
  exists h, renders (concat (map chunk_src xs)) (h ++ notes_html (concat (map chunk_notes xs))) /\
    ~ infix (lit "<") h /\ length (concat (map chunk_notes xs)) = length xs.
Proof. exact only_notes. Qed.
Print Assumptions C138_listed_refuted.
Example C138_ex : let xs := [CNote (lit "a") (lit " one") 0; CNote (lit "a") (lit " two") 0] in
  Forall chunk_ok xs /\ Forall is_note xs /\
  concat (map chunk_src xs) = lit "[^a]: one" ++ [c_nl] ++ lit "[^a]: two" ++ [c_nl] /\
  concat (map chunk_notes xs) = [(lit "a", lit "one"); (lit "a", lit "two")] /\
  occurrences (lit "<li ") (notes_html (concat (map chunk_notes xs))) = 2.
Proof.
  split; [|split; [|split; [|split; reflexivity]]]; [|repeat constructor|reflexivity].
  repeat constructor; vm_compute; intuition discriminate.
Qed.
