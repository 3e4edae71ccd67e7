(** * Markdown: a declarative description of documents and of what is displayed
    for them.

    Specification vocabulary, independent of the lexer and the parser (nothing
    here is code of /repo): a grammar whose rules say, construct by construct,
    which HTML a piece of source contributes.  MarkdownFacts.v proves that
    the renderer produces exactly what the rules say.  The rules describe the
    renderer as it is; where that differs from what a user expects (spaces that
    vanish, text that is dropped) a comment says so and Properties*.v has the
    corresponding negative theorem. *)
From Coq Require Import Ascii String.
From Verif Require Import Strings StringsFacts Parser SanitizeFacts.
Open Scope list_scope.

(** Escaped text: character by character. *)
Definition escaped (t : str) : str := flat_map esc t.

Definition times (n : nat) (t : str) : str := concat (repeat t n).

(** [r] starts with one of the characters [cs]. *)
Definition starts_in (cs : list char) (r : str) : bool :=
  match r with [] => false | c :: _ => mem_char c cs end.

(** Characters that can start a construct; all others are plain. *)
Definition syntax_chars : list char :=
  lit "#*_-+>~`[!<|\0123456789" ++ [c_nl; c_tab; c_sp].
Definition plain (c : char) : bool := negb (mem_char c syntax_chars).

(** White space contributes nothing (so words run together, see C09). *)
Definition show (c : char) : str := if is_whitespace c then [] else esc c.
Definition visible (c : char) : bool := negb (is_whitespace c).

Definition star_under : list char := [c_star; c_under].
Definition dashes : list char := [c_minus; c_plus].
Definition blank_chars : list char := [c_sp; c_tab].

(** Multi-character text that is displayed literally: it starts with a visible
    character, has no line break (or ends in a visible character), and no note
    reference. *)
Definition literal (t : str) : Prop :=
  (exists x t', t = x :: t' /\ is_whitespace x = false) /\
  (~ In c_nl t \/ exists t' x, t = t' ++ [x] /\ is_whitespace x = false) /\
  (~ infix (lit "[^") t \/ ~ In c_rbrk t).

(** ** Link destinations *)

(** Characters that are percent-encoded, and the ampersand. *)
Definition pct (c : char) : str :=
  if ceq c 37%N then lit "%25" else if ceq c c_hash then lit "%23" else
  if ceq c c_lbrk then lit "%5B" else if ceq c c_rbrk then lit "%5D" else
  if ceq c c_bang then lit "%21" else if ceq c 36%N then lit "%24" else
  if ceq c c_apos then lit "%27" else if ceq c c_lpar then lit "%28" else
  if ceq c c_rpar then lit "%29" else if ceq c c_star then lit "%2A" else
  if ceq c c_sp then lit "%20" else if ceq c c_bslash then lit "%5C" else
  if ceq c c_amp then lit "&amp;" else [c].
Definition encoded (t : str) : str := flat_map pct t.
Definition amp_escaped (t : str) : str := replace_char c_amp (lit "&amp;") t.

Definition url_char (c : char) : bool := N.ltb c 128 && negb (is_whitespace c).
Definition scheme_letters : list char :=
  lit "ABCDEFGHIJKLMNOPQRSTUVWXYZabcdefghijklmnopqrstuvwxyz1234567890+.-".
Definition good_scheme (a : str) : Prop :=
  forallb (fun c => mem_char c scheme_letters) a = true /\ 2 <= length a <= 32 /\
  to_lowercase a <> lit "javascript".

(** [dest u href shown]: [u] is an accepted destination, printed as [href]; an
    autolink shows [shown]. *)
Inductive dest : str -> str -> str -> Prop :=
| dest_abs a b : good_scheme a ->
    forallb url_char b = true -> ~ In c_at b ->
    (to_lowercase a = lit "data" -> exists y, b = lit "image/" ++ y) ->
    dest (a ++ [c_colon] ++ b) (a ++ [c_colon] ++ encoded b)
         (if str_eqb a (lit "mailto") then amp_escaped b else a ++ [c_colon] ++ amp_escaped b)
| dest_mail a b : forallb url_char (a ++ b) = true ->
    ~ In c_at (a ++ b) -> ~ In c_colon (a ++ b) -> ~ In c_bslash (a ++ b) ->
    dest (a ++ [c_at] ++ b) (lit "mailto:" ++ encoded (a ++ [c_at] ++ b)) (amp_escaped (a ++ [c_at] ++ b)).
(** A destination without a scheme: printed after http: (even when relative). *)
Definition schemeless (u : str) : Prop :=
  forallb url_char u = true /\ ~ In c_at u /\ ~ In c_colon u.
Inductive href_of : str -> str -> Prop :=
| href_dest u h t : dest u h t -> href_of u h
| href_rel u : schemeless u -> href_of u (lit "http:" ++ encoded u).
(** Rejected destinations. *)
Inductive rejected : str -> Prop :=
| rej_char u : forallb url_char u = false -> rejected u
| rej_js a b : to_lowercase a = lit "javascript" -> ~ In c_colon a -> rejected (a ++ [c_colon] ++ b)
| rej_data a b : to_lowercase a = lit "data" -> ~ In c_colon a ->
    ~ (exists y, b = lit "image/" ++ y) -> rejected (a ++ [c_colon] ++ b).

(** Source of images: like links, but the scheme is dropped. *)
Inductive src_of : str -> str -> Prop :=
| src_abs a b : good_scheme a -> forallb url_char b = true -> ~ In c_at b ->
    (to_lowercase a = lit "data" -> exists y, b = lit "image/" ++ y) ->
    src_of (a ++ [c_colon] ++ b) b
| src_mail a b : forallb url_char (a ++ b) = true ->
    ~ In c_at (a ++ b) -> ~ In c_colon (a ++ b) -> ~ In c_bslash (a ++ b) ->
    src_of (a ++ [c_at] ++ b) (a ++ [c_at] ++ b)
| src_rel u : schemeless u -> src_of u u.

(** ** Lines that start with a bar *)
Definition bar_line (l : str) : str := c_pipe :: l.
Definition bar_lines (ls : list str) : str := concat (map (fun l => bar_line l ++ [c_nl]) ls).
Definition bars (l : str) : nat := length (filter (ceq c_pipe) l).
(** Not a table: fewer than three lines, or different numbers of bars. *)
Definition malformed (ls : list str) : Prop :=
  length ls < 3 \/ exists l l', In l ls /\ In l' ls /\ bars l <> bars l'.

(** ** HTML fragments *)
Definition em_tag (t : str) : str := lit "<em>" ++ escaped t ++ lit "</em>".
Definition strong_tag (t : str) : str := lit "<strong>" ++ escaped t ++ lit "</strong>".
Definition both_tag (t : str) : str := lit "<strong><em>" ++ escaped t ++ lit "</em></strong>".
Definition strike_tag (t : str) : str := lit "<strike>" ++ escaped t ++ lit "</strike>".
Definition a_tag (href t : str) : str := lit "<a href=""" ++ href ++ lit """>" ++ t ++ lit "</a>".
(** (the stray '>' before the value is what the renderer prints) *)
Definition a_title_tag (href title t : str) : str :=
  lit "<a href=>""" ++ href ++ lit """ title=""" ++ title ++ lit """>" ++ t ++ lit "</a>".
Definition img_tag (src alt : str) : str :=
  lit "<p><img src=""" ++ src ++ lit """ alt=""" ++ escaped alt ++ lit """ referrerpolicy=""no-referrer""></p>".
Definition img_empty_tag (alt : str) : str :=
  lit "<p><img src=""data:,"" alt=""" ++ escaped alt ++ lit """></p>".
Definition noteref_tag (i : str) : str :=
  lit "<sup id=""fnref:" ++ escaped i ++ lit """ role=""doc-noteref""><a href=""#fn:" ++ escaped i
  ++ lit """ class=""footnote"" rel=""footnote"">1</a></sup>".

(** The same with a number; references [1], [2], ... in one piece of text. *)
Definition note_tag (n : nat) (i : str) : str :=
  lit "<sup id=""fnref:" ++ escaped i ++ lit """ role=""doc-noteref""><a href=""#fn:" ++ escaped i
  ++ lit """ class=""footnote"" rel=""footnote"">" ++ dec n ++ lit "</a></sup>".
Definition note_refs (ids : list str) : str := concat (map (fun i => lit "[^" ++ i ++ lit "]") ids).
Fixpoint numbered (n : nat) (ids : list str) : str :=
  match ids with [] => [] | i :: is => note_tag n i ++ numbered (S n) is end.

(** ** Inline pieces

    [piece hd r s v h]: the source [s], followed by [r], displays as [h]; [hd]:
    inside a heading; [v]: it opens a paragraph. *)
Inductive piece (hd : bool) : str -> str -> bool -> str -> Prop :=
| p_char r c : plain c = true -> piece hd r [c] (visible c) (show c)
| p_hash_in_heading r : hd = true -> piece hd r [c_hash] true [c_hash]
| p_hashes r n : hd = false -> 1 <= n -> starts_in [c_hash] r = false ->
    6 < n \/ starts_in [c_sp; c_tab; c_nl] r = false ->
    piece hd r (crep n c_hash) true (crep n c_hash)
| p_blanks r n : 1 <= n <= 3 -> starts_in blank_chars r = false -> piece hd r (crep n c_sp) false []
| p_break r n : 4 <= n -> piece hd (c_nl :: r) (crep n c_sp) false []
| p_newline r : starts_in [c_nl] r = false -> piece hd r [c_nl] false []
| p_digit r d : is_digit d = true -> starts_in [c_dot] r = false -> piece hd r [d] true [d]
| p_digit_dot r d : is_digit d = true -> starts_in [c_sp] r = false -> piece hd r [d; c_dot] true [d; c_dot]
| p_bang r : starts_in [c_lbrk] r = false -> piece hd r [c_bang] true [c_bang]
| p_dashes r a b : In a dashes -> In b dashes -> starts_in dashes r = false -> piece hd r [a; b] true [a; b]
| p_arrows r n : 1 <= n -> starts_in (c_gt :: blank_chars) r = false ->
    piece hd r (crep n c_gt) true (escaped (crep n c_gt))
| p_tildes r n : 1 <= n -> n <> 2 -> starts_in [c_tilde] r = false ->
    piece hd r (crep n c_tilde) true (escaped (crep n c_tilde))
| p_strike r t : t <> [] -> ~ In c_tilde t -> starts_in [c_tilde] r = false ->
    piece hd r (lit "~~" ++ t ++ lit "~~") true (strike_tag t)
| p_no_strike r t n : t <> [] -> ~ In c_tilde t -> n <> 2 -> starts_in [c_tilde] r = false ->
    (n = 0 -> r = []) -> literal (lit "~~" ++ t ++ crep n c_tilde) ->
    piece hd r (lit "~~" ++ t ++ crep n c_tilde) true (escaped (lit "~~" ++ t ++ crep n c_tilde))
| p_em r d t d' : In d star_under -> In d' star_under -> t <> [] ->
    (forall c, In c star_under -> ~ In c t) -> starts_in [c_tab; c_sp; c_nl] t = false ->
    piece hd r (d :: t ++ [d']) true (em_tag t)
(* unclosed emphasis extends to the end of the document *)
| p_em_open d t : In d star_under -> t <> [] ->
    (forall c, In c star_under -> ~ In c t) -> starts_in [c_tab; c_sp; c_nl] t = false ->
    piece hd [] (d :: t) true (em_tag t)
| p_strong r ds t ds' : length ds = 2 -> length ds' = 2 -> incl (ds ++ ds') star_under -> t <> [] ->
    (forall c, In c star_under -> ~ In c t) -> starts_in [c_tab; c_nl] t = false ->
    starts_in star_under r = false ->
    piece hd r (ds ++ t ++ ds') true (strong_tag t)
| p_both r ds t ds' : length ds = 3 -> length ds' = 3 -> incl (ds ++ ds') star_under -> t <> [] ->
    (forall c, In c star_under -> ~ In c t) -> starts_in [c_tab; c_nl] t = false ->
    starts_in star_under r = false ->
    piece hd r (ds ++ t ++ ds') true (both_tag t)
| p_no_strong r ds t ds' : length ds = 2 \/ length ds = 3 -> length ds' <> length ds ->
    incl (ds ++ ds') star_under -> t <> [] ->
    (forall c, In c star_under -> ~ In c t) -> starts_in [c_tab; c_nl] t = false ->
    starts_in star_under r = false -> (ds' = [] -> r = []) -> literal (ds ++ t ++ ds') ->
    piece hd r (ds ++ t ++ ds') true (escaped (ds ++ t ++ ds'))
(* a backslash is never displayed, not even an escaped one *)
| p_escape r c : c <> c_hash -> piece hd r [c_bslash; c] (visible c) (show c)
(* a backslash at the end of the document displays as the text EOF *)
| p_eof : piece hd [] [c_bslash] true (lit "EOF")
| p_escape_hashes r n : 1 <= n -> starts_in [c_hash] r = false ->
    piece hd r (c_bslash :: crep n c_hash) true (crep n c_hash)
| p_link r t u href : ~ In c_rbrk t -> ~ In c_rpar u -> href_of u href ->
    piece hd r (lit "[" ++ t ++ lit "](" ++ u ++ lit ")") true (a_tag href (escaped t))
(* a rejected destination is displayed, the text of the link is not *)
| p_link_rejected r t u : ~ In c_rbrk t -> ~ In c_rpar u -> ~ In c_sp u -> rejected u -> literal u ->
    piece hd r (lit "[" ++ t ++ lit "](" ++ u ++ lit ")") true (escaped u)
(* a link with a title swallows the rest of its line *)
| p_link_title r t u title rest href : ~ In c_rbrk t -> ~ In c_rpar u -> href_of u href ->
    ~ In c_rpar title -> ~ In c_nl rest ->
    piece hd r (lit "[" ++ t ++ lit "](" ++ u ++ lit " " ++ title ++ lit ")" ++ rest ++ [c_nl]) true
      (a_title_tag href (lit " " ++ title) (escaped t))
| p_auto r u href t : dest u href t -> ~ In c_gt u ->
    piece hd r (lit "<" ++ u ++ lit ">") true (a_tag href t)
| p_image r t u src : ~ In c_rbrk t -> ~ In c_rpar u -> src_of u src -> src <> [] ->
    piece hd r (lit "![" ++ t ++ lit "](" ++ u ++ lit ")") false (img_tag src t)
| p_image_empty r t u : ~ In c_rbrk t -> ~ In c_rpar u -> src_of u [] ->
    piece hd r (lit "![" ++ t ++ lit "](" ++ u ++ lit ")") false (img_empty_tag t)
| p_brackets r t : ~ In c_rbrk t -> starts_in [c_caret] t = false -> starts_in [c_lpar] r = false ->
    literal (lit "[" ++ t ++ lit "]") ->
    piece hd r (lit "[" ++ t ++ lit "]") true (escaped (lit "[" ++ t ++ lit "]"))
| p_bracket_open t : ~ In c_rbrk t -> literal (lit "[" ++ t) ->
    piece hd [] (lit "[" ++ t) true (escaped (lit "[" ++ t))
| p_noteref r i : ~ In c_rbrk i -> ~ infix (lit "[^") i -> starts_in [c_colon; c_lpar] r = false ->
    piece hd r (lit "[^" ++ i ++ lit "]") true (noteref_tag i)
(* a '<' without a '>' after it is dropped *)
| p_lt_open t : ~ In c_gt t -> literal t -> piece hd [] (lit "<" ++ t) true (escaped t)
| p_lt_text r t : ~ In c_gt t -> t <> lit "details" ->
    existsb is_whitespace t = true \/ (~ In c_colon t /\ ~ In c_at t) -> literal (lit "<" ++ t ++ lit ">") ->
    piece hd r (lit "<" ++ t ++ lit ">") true (escaped (lit "<" ++ t ++ lit ">"))
| p_bars r ls l : malformed (ls ++ [l]) -> (forall x, In x (ls ++ [l]) -> ~ In c_nl x) ->
    starts_in [c_pipe] r = false ->
    ~ infix (lit "[^") (bar_lines ls ++ bar_line l) \/ ~ In c_rbrk (bar_lines ls ++ bar_line l) ->
    piece hd r ((bar_lines ls ++ bar_line l) ++ [c_nl]) true (escaped (bar_lines ls ++ bar_line l))
| p_bars_end ls l : malformed (ls ++ [l]) -> (forall x, In x (ls ++ [l]) -> ~ In c_nl x) ->
    ~ infix (lit "[^") (bar_lines ls ++ bar_line l) \/ ~ In c_rbrk (bar_lines ls ++ bar_line l) ->
    piece hd [] (bar_lines ls ++ bar_line l) true (escaped (bar_lines ls ++ bar_line l))
(* references in one line with a bar are numbered, and the text before them is not escaped *)
| p_bar_notes t ids : ids <> [] -> ~ In c_nl t -> ~ In c_rbrk t -> ~ infix (lit "[^") t ->
    Forall (fun i => ~ In c_nl i /\ ~ In c_rbrk i /\ ~ infix (lit "[^") i) ids ->
    piece hd [] (bar_line (t ++ note_refs ids)) true (bar_line t ++ numbered 1 ids)
(* backticks that are not closed: everything behind them is text *)
| p_tick_open n t : 1 <= n -> n <> 3 -> t <> [] -> starts_in [c_tick] t = false -> ~ infix (crep n c_tick) t ->
    literal (crep n c_tick ++ t) -> piece hd [] (crep n c_tick ++ t) true (escaped (crep n c_tick ++ t))
| p_fence_open t : ~ In c_tick t -> literal (lit "```" ++ t) ->
    piece hd [] (lit "```" ++ t) true (escaped (lit "```" ++ t))
(* an exclamation mark before a note: a message of the program is shown *)
| p_bang_note r i t : ~ In c_rbrk i -> existsb is_whitespace i = false -> ~ In c_nl t -> starts_in blank_chars r = false ->
    piece hd r (lit "![^" ++ i ++ lit "]:" ++ t ++ [c_nl]) true (lit "Non link token returned from lex_links")
(* behind five or more spaces the rest of the line is shown as it is written *)
| p_many_blanks r n t : 5 <= n -> ~ In c_nl t -> literal t -> starts_in blank_chars r = false ->
    piece hd r (crep n c_sp ++ t ++ [c_nl]) true (crep n c_sp ++ escaped t)
(* a note whose name has blanks, or whose next line is indented by spaces, but not two
   or four of them: text, not escaped, and without its beginning *)
| p_note_raw r i t x k : ~ In c_rbrk i -> ~ In c_nl t -> ~ infix (lit "[^") (i ++ lit "]:" ++ t ++ [x]) ->
    is_whitespace x = false -> x <> c_rbrk ->
    (k = 0 /\ existsb is_whitespace i = true /\ starts_in blank_chars r = false) \/
    (1 <= k /\ k <> 2 /\ k <> 4 /\ starts_in [c_sp] r = false) ->
    piece hd r (lit "[^" ++ i ++ lit "]:" ++ (t ++ [x]) ++ [c_nl] ++ crep k c_sp) true (i ++ lit "]:" ++ t ++ [x]).

(** Code spans: [code_span s t]: the source [s] is a code span with content [t].
    (A run of three backticks is a fence, not a code span.) *)
Definition strip_spaces (b : str) : str :=
  if starts_with [c_sp] b && ends_with [c_sp] b
  then trim_end_by (ceq c_sp) (trim_start_by (ceq c_sp) b) else b.
Inductive code_span : str -> str -> Prop :=
| cs n b : 1 <= n -> n <> 3 -> b <> [] -> starts_with [c_tick] b = false -> ends_with [c_tick] b = false ->
    ~ infix (crep n c_tick) b ->
    code_span (crep n c_tick ++ b ++ crep n c_tick) (strip_spaces b).

(** ** Headings *)

(** [heading_line line t]: [t] is the text of the heading line [line] (what follows
    the hashes and one blank): blanks at the end and a closing run of hashes
    after a space are not part of it; other white space at the end is. *)
Definition blanks (b : str) : Prop := incl b blank_chars.
Definition ends_visible (t : str) : Prop := exists t' x, t = t' ++ [x] /\ is_whitespace x = false.
Inductive heading_line : str -> str -> Prop :=
| hl_open t b : ends_visible t -> blanks b ->
    (forall l n, t <> l ++ c_sp :: crep n c_hash) -> ~ (exists n, t = crep n c_hash /\ b = []) ->
    heading_line (t ++ b) t
| hl_space t b y : ends_visible t -> forallb is_whitespace (b ++ [y]) = true -> ~ In y blank_chars ->
    (forall l n, t <> l ++ c_sp :: crep n c_hash) -> heading_line (t ++ b ++ [y]) (t ++ b ++ [y])
| hl_closed t b n b' : ends_visible t -> blanks b -> 1 <= n -> forallb is_whitespace b' = true ->
    heading_line (t ++ b ++ [c_sp] ++ crep n c_hash ++ b') t.
(** What is rendered of the line: with a custom id, only the id (and not as an id). *)
Inductive head_text : str -> str -> Prop :=
| ht_plain line : ~ infix (lit "{#") line \/ ~ In c_rbrace line -> head_text line line
| ht_id a i : ~ In c_lbrace a -> head_text (a ++ lit "{#" ++ i ++ lit "}") i.
Definition h_tag (n : nat) (t : str) : str :=
  lit "<h" ++ dec n ++ lit ">" ++ t ++ lit "</h" ++ dec n ++ lit ">" ++ [c_nl].

(** ** Thematic breaks: [rule_line r s], with [r] what follows. *)
Inductive rule_line (r : str) : str -> Prop :=
| rl_dashes s : incl s dashes -> 3 <= length s -> starts_in dashes r = false -> rule_line r s
| rl_stars n : 1 <= n -> starts_in [c_nl] r = true -> rule_line r (crep n c_star)
| rl_long n c : In c star_under -> 4 <= n -> starts_in (c_tab :: star_under) r = false -> rule_line r (crep n c).

(** ** Documents *)

(** Result of a document beyond the html: an open code block, open quotes, the tag
    that closes an open list, the footnotes. *)
Record final := mkF { f_code : bool; f_quote : nat; f_close : str; f_notes : list (str * str) }.
Definition add_note (n : str * str) (f : final) : final :=
  mkF (f_code f) (f_quote f) (f_close f) (n :: f_notes f).

Definition close_p (b : bool) : str := if b then lit "</p>" ++ [c_nl] else [].
Definition with_nl (h : str) : str := if ends_with [c_nl] h then h else h ++ [c_nl].
Definition note_li (n : str * str) : str :=
  [c_tab; c_tab] ++ lit "<li id=""fn:1"" role=""doc-endnote"">"
  ++ [c_tab; c_tab; c_tab] ++ lit "<p>" ++ escaped (snd n)
  ++ lit "<a href=""#fnref:" ++ escaped (fst n)
  ++ lit """ class=""reversefootnote"" role=""doc-backlink"">" ++ [8617%N]
  ++ lit "</a></p>" ++ [c_tab; c_tab] ++ lit "</li>".
Definition notes_html (ns : list (str * str)) : str :=
  match ns with
  | [] => []
  | _ => lit "<div class=""footnotes"" role=""doc-endnotes"">" ++ [c_nl; c_tab] ++ lit "<ol>" ++ [c_nl]
         ++ concat (map note_li ns) ++ [c_tab] ++ lit "</ol>" ++ [c_nl] ++ lit "</div>" ++ [c_nl]
  end.
Definition fin (h : str) (f : final) : str :=
  with_nl (h ++ times (f_quote f) (lit "</blockquote>" ++ [c_nl]) ++ f_close f)
  ++ (if f_code f then lit "</code></pre>" else []) ++ notes_html (f_notes f).

(** The kind of list that is open. *)
Inductive listkind := LNone | LOl | LUl | LTask.
Definition list_open (l : listkind) : str :=
  match l with
  | LNone => []
  | LOl => lit "<ol>" ++ [c_nl]
  | LUl => lit "<ul>" ++ [c_nl]
  | LTask => lit "<ul class=""contains-task-list"">"
  end.
Definition list_close (l : listkind) : str :=
  match l with LNone => [] | LOl => lit "</ol>" | LUl | LTask => lit "</ul>" end.
(** Opening tag needed to go from [l] to [l']. *)
Definition list_move (l l' : listkind) : str := match l with LNone => list_open l' | _ => [] end.

Definition ol_li (t : str) : str := lit "<li>" ++ [c_nl] ++ escaped t ++ lit "</li>" ++ [c_nl].
(** Code inside a list item is indented by two spaces. *)
Definition pad_code (h : str) : str := replace (lit "<pre><code>") (lit "<pre><code>  ") h.
Definition ul_li (h : str) : str := lit "<li>" ++ [c_nl] ++ pad_code h ++ lit "</li>" ++ [c_nl].
(** An item followed by an indented line: a nested item leaves no trace, ... *)
Definition ul_li_nested (h : str) : str := lit "<li>" ++ pad_code h ++ [c_nl] ++ lit "</li>" ++ [c_nl].
(** ... continued text becomes one paragraph per character. *)
Inductive lazy_text : str -> str -> Prop :=
| lz_nil : lazy_text [] []
| lz_char c u h : plain c = true -> is_whitespace c = false -> lazy_text u h ->
    lazy_text (c :: u) (pad_code (lit "<p>" ++ esc c ++ lit "</p>" ++ [c_nl]) ++ h)
| lz_space u h : starts_in blank_chars u = false -> lazy_text u h -> lazy_text (c_sp :: u) (c_nl :: h).
Definition ul_li_lazy (h hz : str) (nl : bool) : str :=
  lit "<li>" ++ [c_nl] ++ pad_code h ++ [c_nl] ++ hz ++ (if nl then [c_nl] else []) ++ lit "</li>" ++ [c_nl].
Definition task_li (checked : bool) (t : str) : str :=
  lit "<li class=""task-list-item""><input type=""checkbox"" class=""task-list-item-checkbox"""
  ++ (if checked then lit " checked=""""" else []) ++ lit ">" ++ escaped t ++ lit "</li>".
Definition no_nl (t : str) : Prop := ~ In c_nl t.
Definition line_end (r : str) : Prop := r = [] \/ exists r', r = c_nl :: r'.
(** What remains after the end of a line. *)
Definition after_nl (r : str) : str := match r with c :: r' => if ceq c c_nl then r' else r | [] => [] end.
(** The next line does not continue a list item. *)
Definition no_continuation (r : str) : Prop :=
  (forall r', r <> [c_nl; c_nl; c_tab] ++ r') /\
  (forall r', after_nl r <> [c_sp; c_sp] ++ r') /\ (forall r', after_nl r <> c_tab :: r').
Definition task_mark (checked : bool) (m : str) : Prop :=
  if checked then m = lit " [x] " \/ m = lit " [X] " else m = lit " [ ] ".
Definition quote_tags (q n : nat) : str :=
  times (q - n) (lit "</blockquote>") ++ times (n - q) (lit "<blockquote>" ++ [c_nl]).

(** ** Tables *)
Inductive align := AlLeft | AlRight | AlCenter.
Definition align_name (a : align) : str :=
  match a with AlLeft => lit "left" | AlRight => lit "right" | AlCenter => lit "center" end.
Definition bar_free (t : str) : Prop := t <> [] /\ ~ In c_pipe t /\ ~ In c_nl t.
(** A delimiter cell: colons at either end choose the alignment. *)
Definition delim (x : str) : align :=
  match starts_with [c_colon] x, ends_with [c_colon] x with
  | true, true => AlCenter | false, true => AlRight | _, _ => AlLeft
  end.
Definition row_src (cells : list str) : str := [c_pipe] ++ concat (map (fun x => x ++ [c_pipe]) cells).
(** The text of a body cell: [cell_text None s h] without links and code spans.
    [cell_text (Some w) s h]: every link and every code span shows [w]. *)
Inductive cell_text (w : option str) : str -> str -> Prop :=
| ct_nil : cell_text w [] []
| ct_char c s h : plain c = true -> cell_text w s h -> cell_text w (c :: s) (esc c ++ h)
| ct_spaces n s h : 1 <= n <= 3 -> starts_in blank_chars s = false -> cell_text w s h ->
    cell_text w (crep n c_sp ++ s) (crep n c_sp ++ h)
| ct_digit d s h : is_digit d = true -> starts_in [c_dot] s = false -> cell_text w s h -> cell_text w (d :: s) (d :: h)
| ct_digit_dot d s h : is_digit d = true -> starts_in [c_sp] s = false -> cell_text w s h ->
    cell_text w ([d; c_dot] ++ s) ([d; c_dot] ++ h)
| ct_bang s h : starts_in [c_lbrk] s = false -> cell_text w s h -> cell_text w ([c_bang] ++ s) ([c_bang] ++ h)
| ct_escape c s h : c <> c_hash -> cell_text w s h -> cell_text w ([c_bslash; c] ++ s) (esc c ++ h)
(* text that is struck through is lost in a table *)
| ct_strike t s h : w = None -> t <> [] -> ~ In c_tilde t -> starts_in [c_tilde] s = false -> cell_text w s h ->
    cell_text w ((lit "~~" ++ t ++ lit "~~") ++ s) h
| ct_em d t d' s h : In d star_under -> In d' star_under -> t <> [] ->
    (forall c, In c star_under -> ~ In c t) -> starts_in [c_tab; c_sp; c_nl] t = false ->
    cell_text w s h -> cell_text w ((d :: t ++ [d']) ++ s) (em_tag t ++ h)
| ct_strong ds t ds' s h : length ds = 2 -> length ds' = 2 -> incl (ds ++ ds') star_under -> t <> [] ->
    (forall c, In c star_under -> ~ In c t) -> starts_in [c_tab; c_nl] t = false ->
    starts_in star_under s = false -> cell_text w s h ->
    cell_text w ((ds ++ t ++ ds') ++ s) (strong_tag t ++ h)
| ct_both ds t ds' s h : length ds = 3 -> length ds' = 3 -> incl (ds ++ ds') star_under -> t <> [] ->
    (forall c, In c star_under -> ~ In c t) -> starts_in [c_tab; c_nl] t = false ->
    starts_in star_under s = false -> cell_text w s h ->
    cell_text w ((ds ++ t ++ ds') ++ s) (both_tag t ++ h)
| ct_code w' c t s h : w = Some w' -> code_span c t -> cell_text w s h -> cell_text w (c ++ s) (w' ++ h)
| ct_link w' t u href s h : w = Some w' -> ~ In c_rbrk t -> ~ In c_rpar u -> href_of u href -> cell_text w s h ->
    cell_text w ((lit "[" ++ t ++ lit "](" ++ u ++ lit ")") ++ s) (w' ++ h)
| ct_auto w' u href t s h : w = Some w' -> dest u href t -> ~ In c_gt u -> cell_text w s h ->
    cell_text w ((lit "<" ++ u ++ lit ">") ++ s) (w' ++ h).
(** What a cell shows.  In the place of each of its links and code spans it shows
    all of its content, rendered like a document. *)
Definition cell_shows (s h : str) : Prop :=
  cell_text None s h \/ exists w, renders s w /\ cell_text (Some w) s h.
Definition th_tag (a : align) (t : str) : str :=
  [c_tab; c_tab] ++ lit "<th style=""text-align: " ++ align_name a ++ lit """>" ++ escaped (trim t) ++ lit "</th>".
Definition td_tag (a : align) (h : str) : str :=
  [c_nl; c_tab; c_tab] ++ lit "<td style=""text-align: " ++ align_name a ++ lit """>" ++ h ++ lit "</td>".
Definition tr_tag (als : list align) (hs : list str) : str :=
  [c_nl; c_tab] ++ lit "<tr>" ++ concat (map (fun p => td_tag (fst p) (snd p)) (combine als hs))
  ++ [c_nl; c_tab] ++ lit "</tr>".
Definition table_tag (als : list align) (heads : list str) (rows : list (list str)) : str :=
  lit "<table class=""table table-bordered"">" ++ [c_nl; c_tab] ++ lit "<thead>"
  ++ [c_nl; c_tab] ++ lit "<tr>" ++ [c_nl]
  ++ concat (map (fun p => th_tag (fst p) (snd p)) (combine als heads))
  ++ [c_tab] ++ lit "</tr>" ++ [c_nl; c_tab] ++ lit "</thead>" ++ [c_nl; c_tab]
  ++ lit "<tbody>" ++ concat (map (tr_tag als) rows)
  ++ [c_nl; c_tab] ++ lit "</tbody>" ++ [c_nl] ++ lit "</table>".

(** Cells that may be empty, the others of a row, and the number of columns that have an alignment. *)
Definition cell_src (t : str) : Prop := ~ In c_pipe t /\ ~ In c_nl t.
Definition filled (row : list str) : list str := filter (fun x => match x with [] => false | _ => true end) row.
Definition first_row (rows : list (list str)) : list str := match rows with row :: _ => row | [] => [] end.
Definition columns (delims row : list str) : nat := Nat.min (length delims) (length row).

(** ** Collapsible sections *)
Definition details_tag (summary inner : str) : str :=
  lit "<details>" ++ [c_nl] ++ lit "<summary>" ++ escaped summary ++ lit "</summary>"
  ++ [c_nl] ++ inner ++ [c_bslash; c_nl] ++ crep 7 c_tab ++ lit " n</details>".

(** ** The document relation

    [doc hd b c q l s h f]: from a state in which a paragraph is open ([b]), a
    code block is open ([c]), [q] quotes and a list of kind [l] are open, the
    source [s] (up to its end) contributes the html [h] and ends in [f]. *)
Inductive doc (hd : bool) : bool -> bool -> nat -> listkind -> str -> str -> final -> Prop :=
| d_end b c q l : doc hd b c q l [] (close_p b) (mkF c q (list_close l) [])
(** Line breaks. *)
| d_newlines b c q n s h f : 2 <= n -> starts_in [c_nl] s = false ->
    doc hd false c q LNone s h f -> doc hd b c q LNone (crep n c_nl ++ s) (close_p b ++ h) f
| d_list_newlines b c q l n s h f : l <> LNone -> 1 <= n -> starts_in [c_nl] s = false ->
    doc hd b c q l s h f -> doc hd b c q l (crep n c_nl ++ s) h f
(** Pieces: the first visible one opens the paragraph and closes the quotes. *)
| d_blank b c q s r h1 h f : piece hd r s false h1 ->
    doc hd b c q LNone r h f -> doc hd b c q LNone (s ++ r) (h1 ++ h) f
| d_open c q l s r h1 h f : piece hd r s true h1 ->
    doc hd true c 0 l r h f ->
    doc hd false c q l (s ++ r) (times q (lit "</blockquote>") ++ lit "<p>" ++ h1 ++ h) f
| d_more c q s r h1 h f : piece hd r s true h1 ->
    doc hd true c q LNone r h f -> doc hd true c q LNone (s ++ r) (h1 ++ h) f
(* the second visible piece after a list closes the list: *)
| d_more_list c q l s r h1 h f : l <> LNone -> piece hd r s true h1 ->
    doc hd true c q LNone r h f ->
    doc hd true c q l (s ++ r) (list_close l ++ [c_nl] ++ h1 ++ h) f
(** Code spans: <pre><code> is opened once and closed at the end of the document. *)
| d_code b c q s t r h f : code_span s t ->
    doc hd b true q LNone r h f ->
    doc hd b c q LNone (s ++ r) ((if c then [] else lit "<pre><code>") ++ escaped t ++ h) f
| d_indented b c q ws t r h f : In ws [[c_tab]; lit "    "; lit "  " ++ [c_tab]] ->
    no_nl t -> ~ In c_hash t -> starts_in blank_chars t = false -> t <> [] ->
    doc hd b true q LNone r h f ->
    doc hd b c q LNone (ws ++ (t ++ [c_nl]) ++ r)
      ((if c then [] else lit "<pre><code>") ++ escaped (t ++ [c_nl]) ++ h) f
(* fenced code is not displayed at all: *)
| d_fence b c q lang t r h f : no_nl lang -> ~ In c_tick lang -> ~ In c_tick t -> starts_in [c_tick] r = false ->
    doc hd false c q LNone r h f ->
    doc hd b c q LNone ((lit "```" ++ lang ++ [c_nl] ++ t ++ lit "```") ++ r) (close_p b ++ h) f
(** Headings. *)
| d_heading b c q n sep line l0 t hi fi r h f : hd = false -> 1 <= n <= 6 -> In sep blank_chars -> no_nl line ->
    line_end r -> head_text line l0 -> heading_line l0 t -> doc true false false 0 LNone t (lit "<p>" ++ hi ++ lit "</p>" ++ [c_nl]) fi ->
    fi = mkF false 0 [] [] ->
    doc hd false c q LNone r h f ->
    doc hd b c q LNone ((crep n c_hash ++ sep :: line) ++ r) (close_p b ++ h_tag n (trim hi) ++ h) f
| d_heading_empty b c q n line r h f : hd = false -> 1 <= n <= 6 ->
    line = [] \/ (exists sep k, In sep blank_chars /\ line = sep :: crep k c_hash) ->
    line_end r -> (line = [] -> r <> []) ->
    doc hd false c q LNone r h f ->
    doc hd b c q LNone ((crep n c_hash ++ line) ++ r) (close_p b ++ h_tag n [] ++ h) f
(* a heading that contains code (or anything that leaves a code block open) loses its text: *)
| d_heading_code b c q n sep line l0 t hi fi r h f : hd = false -> 1 <= n <= 6 -> In sep blank_chars -> no_nl line ->
    line_end r -> head_text line l0 -> heading_line l0 t -> doc true false false 0 LNone t hi fi -> f_code fi = true ->
    doc hd false c q LNone r h f ->
    doc hd b c q LNone ((crep n c_hash ++ sep :: line) ++ r) (close_p b ++ h_tag n [] ++ h) f
(** Thematic breaks. *)
| d_rule b c q s r h f : rule_line r s ->
    doc hd b c q LNone r h f -> doc hd b c q LNone (s ++ r) (lit "<hr />" ++ [c_nl] ++ h) f
(** Lists. *)
| d_ol b c q l d t r h f : l = LNone \/ l = LOl -> is_digit d = true -> no_nl t -> line_end r ->
    doc hd b c q LOl r h f ->
    doc hd b c q l ((d :: lit ". " ++ t) ++ r) (list_move l LOl ++ ol_li t ++ h) f
| d_ul b c q l m t r hi fi h f : l = LNone \/ l = LUl -> In m dashes -> no_nl t -> line_end r ->
    starts_in (c_tab :: dashes) t = false ->
    (forall ck mk y, task_mark ck mk -> t <> mk ++ y) -> no_continuation r ->
    doc false false false 0 LNone (trim_start_by (ceq c_sp) t) hi fi ->
    doc hd b c q LUl (after_nl r) h f ->
    doc hd b c q l ((m :: t) ++ r) (list_move l LUl ++ ul_li (fin hi fi) ++ h) f
| d_ul_nested b c q l m t m' t' r hi fi h f : l = LNone \/ l = LUl -> In m dashes -> In m' dashes ->
    no_nl t -> no_nl t' -> line_end r ->
    starts_in (c_tab :: dashes) t = false -> starts_in (c_tab :: dashes) t' = false ->
    (forall ck mk y, task_mark ck mk -> t <> mk ++ y) ->
    doc false false false 0 LNone (trim_start_by (ceq c_sp) t) hi fi ->
    doc hd b c q LUl (after_nl r) h f ->
    doc hd b c q l ((m :: t ++ c_nl :: lit "  " ++ m' :: t') ++ r)
      (list_move l LUl ++ ul_li_nested (fin hi fi) ++ h) f
| d_ul_lazy b c q l m t u hu r hi fi h f : l = LNone \/ l = LUl -> In m dashes ->
    no_nl t -> no_nl u -> line_end r ->
    starts_in (c_tab :: dashes) t = false -> starts_in blank_chars u = false -> lazy_text u hu ->
    (forall ck mk y, task_mark ck mk -> t <> mk ++ y) ->
    doc false false false 0 LNone (trim_start_by (ceq c_sp) t) hi fi ->
    doc hd b c q LUl (after_nl r) h f ->
    doc hd b c q l ((m :: t ++ c_nl :: lit "  " ++ u) ++ r)
      (list_move l LUl ++ ul_li_lazy (fin hi fi) hu (starts_in [c_nl] r) ++ h) f
| d_ul_star b c q l m t r hi fi h f : l = LNone \/ l = LUl -> In m star_under -> no_nl t -> line_end r ->
    starts_in [c_tab] t = false ->
    doc false false false 0 LNone (trim_start_by (ceq c_sp) t) hi fi ->
    doc hd b c q LUl (after_nl r) h f ->
    doc hd b c q l ((m :: c_sp :: t) ++ r) (list_move l LUl ++ ul_li (fin hi fi) ++ h) f
| d_task b c q l m ck mk t r h f : l = LNone \/ l = LTask -> In m dashes -> task_mark ck mk -> no_nl t -> line_end r ->
    (forall r', r <> [c_nl; c_nl; c_tab] ++ r') ->
    doc hd b c q LTask (after_nl r) h f ->
    doc hd b c q l ((m :: mk ++ t) ++ r) (list_move l LTask ++ task_li ck t ++ h) f
(** Quotes; their text is escaped before it is rendered, and the level is a number below 256. *)
| d_quote b c q n t r hi fi h f : 1 <= n -> no_nl t -> starts_in blank_chars t = true -> line_end r ->
    doc false false false 0 LNone (escaped (trim_start_by (ceq c_sp) t)) hi fi ->
    doc hd false c (n mod 256) LNone (after_nl r) h f ->
    doc hd b c q LNone ((crep n c_gt ++ t) ++ r)
      ((if b then lit "</p>" else []) ++ quote_tags q (n mod 256) ++ replace [c_tab] (lit "  ") (fin hi fi) ++ h) f
(** Tables. *)
| d_table b c q heads delims rows hrows r h f : heads <> [] -> rows <> [] ->
    length delims = length heads ->
    Forall (fun row => length row = length heads) rows ->
    Forall bar_free heads -> Forall bar_free delims -> Forall (Forall bar_free) rows ->
    Forall2 (Forall2 (fun x y => cell_shows (trim x) y)) rows hrows ->
    starts_in [c_pipe] r = false ->
    doc hd b c q LNone r h f ->
    doc hd b c q LNone
      (concat (map (fun row => row_src row ++ [c_nl]) (heads :: delims :: rows)) ++ r)
      (table_tag (map (fun x => delim (trim x)) delims) heads hrows ++ h) f
(** Footnote definitions. *)
| d_note b c q i t r h f : ~ In c_rbrk i -> existsb is_whitespace i = false -> no_nl t ->
    starts_in blank_chars r = false ->
    doc hd b c q LNone r h f ->
    doc hd b c q LNone ((lit "[^" ++ i ++ lit "]:" ++ t ++ [c_nl]) ++ r) h (add_note (i, trim t) f)
(** Collapsible sections. *)
| d_details b c q summary body hi fi r h f : ~ In c_nl summary -> ~ In c_cr summary ->
    ~ infix (lit "<details>") body -> ~ infix (lit "</details>") body ->
    doc false false false 0 LNone (c_nl :: body) hi fi ->
    doc hd false c q LNone r h f ->
    doc hd b c q LNone
      ((lit "<details>" ++ [c_nl] ++ lit "<summary>" ++ summary ++ lit "</summary>" ++ [c_nl] ++ body
        ++ lit "</details>") ++ r)
      (close_p b ++ details_tag summary (fin hi fi) ++ h) f
(** Tables with empty cells: those are left out, so that the cells behind them move to the left.
    If the first row of the body then has another number of cells than the head, nothing is shown. *)
| d_table_gaps b c q heads delims rows hrows r h f : rows <> [] ->
    length delims = length heads -> Forall (fun row => length row = length heads) rows ->
    Forall cell_src heads -> Forall cell_src delims -> Forall (Forall cell_src) rows ->
    Forall2 (Forall2 (fun x y => cell_shows (trim x) y)) (map filled rows) hrows ->
    starts_in [c_pipe] r = false ->
    doc hd b c q LNone r h f ->
    doc hd b c q LNone
      (concat (map (fun row => row_src row ++ [c_nl]) (heads :: delims :: rows)) ++ r)
      ((if columns (filled delims) (filled heads) =? columns (filled delims) (filled (first_row rows))
        then table_tag (map (fun x => delim (trim x)) (filled delims)) (filled heads) hrows else []) ++ h) f.

(** What a whole document displays. *)
Definition displays (s out : str) : Prop :=
  exists h f, doc false false false 0 LNone s h f /\ out = fin h f.
