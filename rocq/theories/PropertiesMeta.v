(** * Properties: documents that differ in what must not matter (C78 - C82). *)
From Coq Require Import Ascii String.
From Verif Require Import Strings StringsFacts Token Iter Lexer Parser Alike Lead Markdown SpecText MetaFacts Local Sections Final Dos Behind.
Open Scope list_scope.

(** ** C78: letters beyond ASCII are all alike

    [pi] exchanges chars, leaving ASCII and white space as they are and turning the others into
    chars beyond ASCII that are not white space either.  U+21A9 is the arrow the renderer itself
    writes behind footnotes. *)
Theorem C78_letters_alike : forall pi : char -> char,
  (forall c, (c < 128)%N \/ is_whitespace c = true -> pi c = c) ->
  (forall c, (128 <= c)%N -> is_whitespace c = false ->
     (128 <= pi c)%N /\ is_whitespace (pi c) = false) ->
  pi 8617%N = 8617%N ->
  forall s,
  (forall h, renders s h -> renders (map pi s) (map pi h)) /\
  (forall h, renders (map pi s) h -> exists h0, renders s h0 /\ h = map pi h0) /\
  (crashes (map pi s) <-> crashes s) /\
  (runs_forever (map pi s) <-> runs_forever s).
Proof. exact letters_alike. Qed.
Print Assumptions C78_letters_alike.

(** U+00E9 and U+65E5 exchanged: the hypotheses hold, and a document with its rendering. *)
Example C78_ex :
  (forall c, (c < 128)%N \/ is_whitespace c = true -> swap c = c) /\
  (forall c, (128 <= c)%N -> is_whitespace c = false ->
     (128 <= swap c)%N /\ is_whitespace (swap c) = false) /\
  swap 8617%N = 8617%N /\
  renders (lit "# " ++ [233%N] ++ lit " [^" ++ [26085%N] ++ lit "]")
          (lit "<h1>" ++ [233%N] ++ lit "<sup id=""fnref:" ++ [26085%N]
           ++ lit """ role=""doc-noteref""><a href=""#fn:" ++ [26085%N]
           ++ lit """ class=""footnote"" rel=""footnote"">1</a></sup></h1>" ++ [c_nl]).
Proof. exact swap_ex. Qed.
(** None of the conditions can be dropped: ASCII letters, white space, the arrow. *)
Example C78_ascii : forall h,
  let pi c := if N.eqb c 120 then 121%N else c in
  renders (lit "- [x] a") h -> ~ renders (map pi (lit "- [x] a")) (map pi h).
Proof. exact ascii_not_alike. Qed.
Example C78_space : forall h,
  let pi c := if N.eqb c 233 then 160%N else c in
  renders (233%N :: lit "b") h -> ~ renders (map pi (233%N :: lit "b")) (map pi h).
Proof. exact space_not_alike. Qed.
Example C78_arrow : forall h,
  let pi c := if N.eqb c 8617 then 233%N else c in
  renders (lit "[^a]: b") h -> ~ renders (map pi (lit "[^a]: b")) (map pi h).
Proof. exact arrow_not_alike. Qed.

(** ** C79: empty lines in front of a document make no difference *)
Theorem C79_lead_partial : forall k s, ~ indented s ->
  (forall h, renders (crep k c_nl ++ s) h <-> renders s h) /\
  (crashes (crep k c_nl ++ s) <-> crashes s) /\
  (runs_forever (crep k c_nl ++ s) <-> runs_forever s).
Proof. exact lead_alike. Qed.
Print Assumptions C79_lead_partial.

(** In front of an indented line only their number makes no difference. *)
Theorem C79_number_partial : forall k s, 1 <= k ->
  (forall h, renders (crep k c_nl ++ s) h <-> renders (c_nl :: s) h) /\
  (crashes (crep k c_nl ++ s) <-> crashes (c_nl :: s)) /\
  (runs_forever (crep k c_nl ++ s) <-> runs_forever (c_nl :: s)).
Proof. exact number_alike. Qed.
Print Assumptions C79_number_partial.

(** C79 as stated is false. *)
Theorem C79_refuted : exists s h1 h2, renders s h1 /\ renders (c_nl :: s) h2 /\ h1 <> h2.
Proof. exact lead_differs. Qed.
Print Assumptions C79_refuted.
Example C79_ex : ~ indented (lit "   # a") /\
  renders (c_nl :: c_nl :: lit "   # a") (lit "<h1>a</h1>" ++ [c_nl]) /\
  indented (lit "    # a").
Proof. exact lead_ex. Qed.

(** ** C80: what stands behind an empty line is rendered as if it stood alone

    [closed_section s]: the last token of [s] is an empty line, and none of its tokens is a list
    entry, a task, a quote, code or a footnote.  [joined hs hx out]: [out] is [hs ++ hx] but for
    one newline at the seam. *)
Theorem C80_sections_partial : forall s x hs, closed_section s -> ~ indented x -> renders s hs ->
  (forall hx, renders x hx -> exists out, renders (s ++ x) out /\ joined hs hx out) /\
  (forall out, renders (s ++ x) out -> exists hx, renders x hx /\ joined hs hx out) /\
  (crashes (s ++ x) <-> crashes x) /\ (runs_forever (s ++ x) <-> runs_forever x).
Proof. exact sections_alone. Qed.
Print Assumptions C80_sections_partial.

(** In terms of the text: prose with headings, without the chars that can open anything else. *)
Theorem C80_prose_partial : forall s q hs x,
  forallb calm s = true -> ~ infix (lit "    ") s -> s = q ++ [c_nl; c_nl] ->
  ~ indented x -> renders s hs ->
  (forall hx, renders x hx -> exists out, renders (s ++ x) out /\ joined hs hx out) /\
  (forall out, renders (s ++ x) out -> exists hx, renders x hx /\ joined hs hx out) /\
  (crashes (s ++ x) <-> crashes x) /\ (runs_forever (s ++ x) <-> runs_forever x).
Proof. exact sections_prose. Qed.
Print Assumptions C80_prose_partial.

(** So a heading with a custom id in another place than its end panics, and an unclosed details block runs forever,
    behind all prose, too (C01 and C02). *)
Theorem C01_C80_behind_prose : forall s q n line rest,
  forallb calm s = true -> ~ infix (lit "    ") s -> ~ infix (lit "{#") s -> s = q ++ [c_nl; c_nl] ->
  1 <= n <= 6 -> ~ In c_nl line -> (rest = [] \/ exists r, rest = c_nl :: r) ->
  infix (lit "{#") line -> In c_rbrace line ->
  (forall a b, line = a ++ lit "{#" ++ b ++ lit "}" -> In c_lbrace a) ->
  crashes (s ++ crep n c_hash ++ c_sp :: line ++ rest).
Proof. exact prose_panics. Qed.
Print Assumptions C01_C80_behind_prose.
Theorem C02_C80_behind_prose : forall s q summary blocks z,
  forallb calm s = true -> ~ infix (lit "    ") s -> ~ infix (lit "{#") s -> s = q ++ [c_nl; c_nl] ->
  ~ In c_nl summary -> ~ In c_cr summary -> blocks <> [] ->
  Forall (fun p => ~ In c_lt (fst p) /\ ~ In c_lt (snd p)) blocks -> ~ In c_lt z ->
  runs_forever (s ++ lit "<details>" ++ [c_nl] ++ lit "<summary>" ++ summary ++ lit "</summary>" ++ [c_nl]
                ++ flat_map (fun p => fst p ++ lit "<details>" ++ snd p ++ lit "</details>") blocks ++ z).
Proof. exact prose_hangs. Qed.
Print Assumptions C02_C80_behind_prose.
Example C80_behind_prose_ex :
  let s := lit "# Title" ++ [c_nl] ++ lit "some words, and (more)." ++ [c_nl; c_nl] in
  forallb calm s = true /\ ~ infix (lit "    ") s /\ ~ infix (lit "{#") s /\
  crashes (s ++ crep 2 c_hash ++ c_sp :: lit "Install {#install} now" ++ []).
Proof. exact behind_ex. Qed.

(** Any number of sections; but for newlines the output is that of the sections, one behind the other. *)
Theorem C80_many_partial : forall ss hs x, Forall2 renders ss hs -> Forall closed_section ss ->
  Forall (fun s => ~ indented s /\ In c_nl s) ss -> ~ indented x ->
  (forall hx, renders x hx -> exists out, renders (concat ss ++ x) out /\ all_joined hs hx out) /\
  (forall out, renders (concat ss ++ x) out -> exists hx, renders x hx /\ all_joined hs hx out) /\
  (crashes (concat ss ++ x) <-> crashes x) /\ (runs_forever (concat ss ++ x) <-> runs_forever x).
Proof. exact many_sections. Qed.
Print Assumptions C80_many_partial.
Theorem C80_many_text_partial : forall hs hx out, all_joined hs hx out ->
  filter not_nl out = filter not_nl (concat hs ++ hx).
Proof. exact many_sections_text. Qed.
Print Assumptions C80_many_text_partial.
Example C80_many_ex :
  let ss := [lit "# a" ++ [c_nl; c_nl]; lit "b" ++ [c_nl; c_nl]; lit "## c" ++ [c_nl] ++ lit "d" ++ [c_nl; c_nl]] in
  Forall closed_section ss /\ Forall (fun s => ~ indented s /\ In c_nl s) ss.
Proof. exact many_ex. Qed.

(** C80 as stated is false, for each kind of token left out and for an indented continuation. *)
Theorem C80_refuted :
  entangled (lit "- a") (lit "b") /\ entangled (lit "1. a") (lit "b") /\ entangled (lit "- [ ] a") (lit "b") /\
  entangled (lit "> a") (lit "> b") /\ entangled (lit "`a`") (lit "b") /\ entangled (lit "[^a]: a") (lit "b") /\
  entangled (lit "a") (lit "    # b").
Proof. exact open_sections. Qed.
Print Assumptions C80_refuted.
Example C80_ex :
  let s := lit "# a" ++ [c_nl; c_nl] ++ lit "b *c*" ++ [c_nl; c_nl] in
  closed_section s /\ ~ indented (lit "- d") /\
  renders s (lit "<h1>a</h1>" ++ [c_nl] ++ lit "<p>b<em>c</em></p>" ++ [c_nl]) /\
  renders (lit "- d") (lit "<ul>" ++ [c_nl] ++ lit "<li>" ++ [c_nl] ++ lit "<p>d</p>" ++ [c_nl]
    ++ lit "</li>" ++ [c_nl] ++ lit "</ul>" ++ [c_nl]) /\
  renders (s ++ lit "- d")
    (lit "<h1>a</h1>" ++ [c_nl] ++ lit "<p>b<em>c</em></p>" ++ [c_nl] ++
     lit "<ul>" ++ [c_nl] ++ lit "<li>" ++ [c_nl] ++ lit "<p>d</p>" ++ [c_nl]
    ++ lit "</li>" ++ [c_nl] ++ lit "</ul>" ++ [c_nl]).
Proof. exact sections_ex. Qed.
Example C80_prose_ex :
  let s := lit "# On prose" ++ [c_nl; c_nl] ++ lit "Words, words!  More (of them)." ++ [c_nl; c_nl] in
  forallb calm s = true /\ ~ infix (lit "    ") s.
Proof. exact prose_ex. Qed.

(** ** C81: empty lines behind a document make no difference

    [at_top s]: [s] is empty, or its last token is an empty line. *)
Theorem C81_final_lines_partial : forall s w k,
  at_top s -> forallb calm w = true -> ~ infix (lit "    ") w -> (forall q, w <> q ++ [c_hash]) ->
  (forall h, renders (s ++ w ++ crep k c_nl) h <-> renders (s ++ w) h) /\
  (crashes (s ++ w ++ crep k c_nl) <-> crashes (s ++ w)) /\
  (runs_forever (s ++ w ++ crep k c_nl) <-> runs_forever (s ++ w)).
Proof. exact final_alike. Qed.
Print Assumptions C81_final_lines_partial.

(** C81 as stated is false; each condition on the last lines is needed. *)
Theorem C81_refuted : forall s, In s [lit "#"; lit "*a"; lit "***"; lit "a    "] ->
  exists h1 h2, renders s h1 /\ renders (s ++ [c_nl]) h2 /\ h1 <> h2.
Proof. exact final_differs. Qed.
Print Assumptions C81_refuted.
Example C81_ex :
  let s := lit "- a" ++ [c_nl; c_nl; c_nl] in let w := lit "## b" ++ [c_nl] ++ lit "c." in
  at_top s /\ forallb calm w = true /\ ~ infix (lit "    ") w /\ (forall q, w <> q ++ [c_hash]).
Proof. exact final_ex. Qed.

(** ** C82: Windows line ends make no difference

    [page eol ls]: the lines [ls], with [eol] between them; [row_ok]: a line that is not empty, of
    ordinary text, or a heading of ordinary text without further hashes. *)
Theorem C82_windows_partial : forall ls, Forall row_ok ls ->
  exists h, renders (page [c_nl] ls) h /\ renders (page [c_cr; c_nl] ls) h.
Proof. exact windows_lines. Qed.
Print Assumptions C82_windows_partial.
Example C82_ex :
  let ls := [Title 2 (lit "On lines"); Words (lit "3 of them."); Words (lit "and #one"); Title 1 (lit "End!")] in
  Forall row_ok ls /\
  page [c_cr; c_nl] ls = lit "## On lines" ++ [c_cr; c_nl] ++ lit "3 of them." ++ [c_cr; c_nl] ++ lit "and #one"
    ++ [c_cr; c_nl] ++ lit "# End!".
Proof. exact windows_ex. Qed.

(** C82 as stated is false.  Every document that begins with a heading with an id is rendered with
    Unix line ends and panics with Windows line ends (for empty lines, see C10_blank_line_refuted). *)
Theorem C82_heading_id_refuted : forall n a i p,
  1 <= n <= 6 -> ~ In c_nl a -> ~ In c_lbrace a -> heading_ordinary i -> paragraph p = true ->
  let doc eol := crep n c_hash ++ [c_sp] ++ a ++ lit "{#" ++ i ++ lit "}" ++ eol ++ p in
  renders (doc [c_nl]) (h_tag n (txt i) ++ p_tag (txt p)) /\ crashes (doc [c_cr; c_nl]).
Proof. exact windows_id. Qed.
Print Assumptions C82_heading_id_refuted.
Example C82_heading_id_refuted_ex :
  heading_ordinary (lit "install") /\ paragraph (lit "Run it.") = true /\
  crashes (lit "# Installation {#install}" ++ [c_cr; c_nl] ++ lit "Run it.").
Proof. exact windows_id_ex. Qed.
