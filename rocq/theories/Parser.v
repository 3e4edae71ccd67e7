(** * Parser: model of /repo/gfm/src/lib.rs (and the knot with Lexer.v). *)
From Coq Require Import Ascii String.
From Verif Require Import Strings Token Iter Lexer.
Open Scope list_scope.

(** lib.rs:572-588 [sanitize_display_text]: fourteen successive replacements. *)
Definition sanitize (s0 : str) : str :=
  let s1 := replace_char c_amp (lit "&amp;") s0 in
  let s2 := replace_char c_lt (lit "&lt;") s1 in
  let s3 := replace_char c_gt (lit "&gt;") s2 in
  let s4 := replace_char c_quot (lit "&quot;") s3 in
  let s5 := replace_char c_apos (lit "&apos;") s4 in
  let s6 := replace_char c_lbrk (lit "&lbrack;") s5 in
  let s7 := replace_char c_rbrk (lit "&rbrack;") s6 in
  let s8 := replace_char c_lbrace (lit "&lbrace;") s7 in
  let s9 := replace_char c_rbrace (lit "&rbrace;") s8 in
  let s10 := replace_char c_pipe (lit "&mid;") s9 in
  let s11 := replace_char c_bslash [] s10 in
  let s12 := replace_char c_tilde (lit "&tilde;") s11 in
  let s13 := replace_char c_rpar (lit "&#41;") s12 in
  replace_char c_lpar (lit "&#40;") s13.

(** The local variables of [parse] (lib.rs:54-61). *)
Record pstate := mkP {
  html : str;
  quote_level : nat;
  in_task_list : bool;
  in_paragraph : bool;
  in_ordered_list : bool;
  in_unordered_list : bool;
  in_code : bool;
  references : list (str * str) }.

(** lib.rs:54-61: initial values. *)
Definition pinit : pstate := mkP [] 0 false false false false false [].

(** [html.push_str(s)]. *)
Definition push (s : str) (p : pstate) : pstate :=
  mkP (html p ++ s) (quote_level p) (in_task_list p) (in_paragraph p)
      (in_ordered_list p) (in_unordered_list p) (in_code p) (references p).
Definition set_quote (q : nat) (p : pstate) : pstate :=
  mkP (html p) q (in_task_list p) (in_paragraph p)
      (in_ordered_list p) (in_unordered_list p) (in_code p) (references p).
Definition set_task (b : bool) (p : pstate) : pstate :=
  mkP (html p) (quote_level p) b (in_paragraph p)
      (in_ordered_list p) (in_unordered_list p) (in_code p) (references p).
Definition set_par (b : bool) (p : pstate) : pstate :=
  mkP (html p) (quote_level p) (in_task_list p) b
      (in_ordered_list p) (in_unordered_list p) (in_code p) (references p).
Definition set_ol (b : bool) (p : pstate) : pstate :=
  mkP (html p) (quote_level p) (in_task_list p) (in_paragraph p)
      b (in_unordered_list p) (in_code p) (references p).
Definition set_ul (b : bool) (p : pstate) : pstate :=
  mkP (html p) (quote_level p) (in_task_list p) (in_paragraph p)
      (in_ordered_list p) b (in_code p) (references p).
Definition set_code (b : bool) (p : pstate) : pstate :=
  mkP (html p) (quote_level p) (in_task_list p) (in_paragraph p)
      (in_ordered_list p) (in_unordered_list p) b (references p).
Definition add_ref (r : str * str) (p : pstate) : pstate :=
  mkP (html p) (quote_level p) (in_task_list p) (in_paragraph p)
      (in_ordered_list p) (in_unordered_list p) (in_code p) (references p ++ [r]).

(** [n] copies of a literal, for the [for _i in 0..n { push_str }] loops. *)
Fixpoint nrep (n : nat) (s : str) : str :=
  match n with O => [] | S n' => s ++ nrep n' s end.

(** [t.trim().is_empty()] (lib.rs:70, 144). *)
Definition is_blank (t : str) : bool := is_empty (trim t).

(** Classes of tokens named by the patterns of lib.rs:70-134. *)
Definition is_inline (t : token) : bool :=     (* lib.rs:77-82 *)
  match t with
  | Plaintext _ | Italic _ | Bold _ | BoldItalic _ | Strikethrough _
  | Link _ _ _ => true
  | _ => false
  end.
Definition is_list_or_newline (t : token) : bool :=  (* lib.rs:72-74 *)
  match t with
  | OrderedListEntry _ | UnorderedListEntry _ | Newline => true
  | _ => false
  end.
Definition is_task_or_newline (t : token) : bool :=  (* lib.rs:76 *)
  match t with TaskListItem _ _ | Newline => true | _ => false end.
Definition is_par_closer (t : token) : bool :=       (* lib.rs:116-118 *)
  match t with CodeBlock _ _ | Newline | Header _ _ _ => true | _ => false end.
Definition is_quote_or_newline (t : token) : bool := (* lib.rs:124 *)
  match t with BlockQuote _ _ | Newline => true | _ => false end.

(** lib.rs:95-98, 103-106, 111-114. *)
Definition open_par (p : pstate) : pstate :=
  if in_paragraph p then p else push (lit "<p>") (set_par true p).

(** lib.rs:69-139: the first [match token], arms in source order.  The arm at
    126-133 repeats the one at 116-123 and is unreachable. *)
Definition pre (tok : token) (p : pstate) : pstate :=
  match tok with
  | Plaintext t => if is_blank t then p else
      if negb (in_paragraph p)
      then push (lit "<p>") (set_par true (set_quote 0
             (push (nrep (quote_level p) (lit "</blockquote>")) p)))
      else if in_ordered_list p
      then open_par (push (lit "</ol>" ++ [c_nl]) (set_ol false p))
      else if in_unordered_list p
      then open_par (push (lit "</ul>" ++ [c_nl]) (set_ul false p))
      else if in_task_list p
      then open_par (push (lit "</ul>" ++ [c_nl]) (set_task false p))
      else p
  | Tab | DoubleTab => p
  | _ =>
      if is_list_or_newline tok && (in_ordered_list p || in_unordered_list p) then p
      else if is_task_or_newline tok && in_task_list p then p
      else if is_inline tok && negb (in_paragraph p)
      then push (lit "<p>") (set_par true (set_quote 0
             (push (nrep (quote_level p) (lit "</blockquote>")) p)))
      else if in_ordered_list p
      then open_par (push (lit "</ol>" ++ [c_nl]) (set_ol false p))
      else if in_unordered_list p
      then open_par (push (lit "</ul>" ++ [c_nl]) (set_ul false p))
      else if in_task_list p
      then open_par (push (lit "</ul>" ++ [c_nl]) (set_task false p))
      else if is_par_closer tok && in_paragraph p
      then push (lit "</p>" ++ [c_nl]) (set_par false p)
      else if is_quote_or_newline tok && negb (quote_level p =? 0) then p
      else match tok with
           | Code _ => if in_code p then p
                       else set_code true (push (lit "<pre><code>") p)
           | _ => p
           end
  end.

(** lib.rs:148-153: drop a trailing all-blank tail that starts at the last
    newline. *)
Definition drop_blank_tail (t : str) : str :=
  match rfind_split_at c_nl t with
  | Some (_, after) => if forallb is_whitespace after then trim_end_matches after t else t
  | None => t
  end.

(** lib.rs:163-173: one footnote reference. *)
Definition footnote_ref (reference : str) (count : nat) : str :=
  lit "<sup id=""fnref:" ++ sanitize reference
  ++ lit """ role=""doc-noteref""><a href=""#fn:" ++ sanitize reference
  ++ lit """ class=""footnote"" rel=""footnote"">" ++ dec count
  ++ lit "</a></sup>".

(** lib.rs:159-180: the loop over the pieces around "[^". *)
Fixpoint footnote_pieces (count : nat) (pieces : list str) : str :=
  match pieces with
  | [] => []
  | tok :: rest =>
      if ends_with [c_rbrk] (trim_end tok)
      then footnote_ref (trim_end_by (ceq c_rbrk) (trim_end tok)) count
           ++ footnote_pieces (S count) rest
      else tok ++ footnote_pieces count rest
  end.

(** lib.rs:142-187: the text pushed for a non-blank [Plaintext]. *)
Definition plaintext_html (t0 : str) : str :=
  let t := drop_blank_tail t0 in
  if contains [c_lbrk; c_caret] t && contains [c_rbrk] t
  then footnote_pieces 1 (split [c_lbrk; c_caret] t)
  else sanitize (trim_start_by (ceq c_nl) t).

(** lib.rs:188-211. *)
Definition header_html (l : nat) (t : str) (lbl : option str) : str :=
  match lbl with
  | Some x =>
      lit "<h" ++ dec l ++ lit " id=""" ++ sanitize (replace_char c_sp (lit "-") x)
      ++ lit """>" ++ t ++ lit "</h" ++ dec l ++ lit ">" ++ [c_nl]
  | None =>
      lit "<h" ++ dec l ++ lit ">" ++ t ++ lit "</h" ++ dec l ++ lit ">" ++ [c_nl]
  end.

(** lib.rs:261-289. *)
Definition image_html (l : str) (t : option str) : str :=
  if is_empty (trim l) then
    match t with
    | None => lit "<p><img src=""data:,""></p>"
    | Some t => lit "<p><img src=""data:,"" alt=""" ++ sanitize t ++ lit """></p>"
    end
  else
    match t with
    | None => lit "<p><img src=""" ++ l
              ++ lit """> referrerpolicy=""no-referrer""></p>"
    | Some t => lit "<p><img src=""" ++ l ++ lit """ alt=""" ++ sanitize t
              ++ lit """ referrerpolicy=""no-referrer""></p>"
    end.

(** lib.rs:290-324. *)
Definition link_html (l : valid_url) (t ht : option str) : str :=
  match t, ht with
  | Some t, Some ht =>
      lit "<a href=>""" ++ fmt_url l ++ lit """ title=""" ++ ht ++ lit """>"
      ++ sanitize t ++ lit "</a>"
  | Some t, None =>
      lit "<a href=""" ++ fmt_url l ++ lit """>" ++ sanitize t ++ lit "</a>"
  | None, Some ht =>
      lit "<a href=""" ++ fmt_url l ++ lit """ title=""" ++ sanitize ht ++ lit """>"
      ++ fmt_url l ++ lit "</a>"
  | None, None =>
      lit "<a href=""" ++ fmt_url l ++ lit """>" ++ fmt_unsafe l ++ lit "</a>"
  end.

(** lib.rs:331-339: note the literal backslash, newline and indentation (lines
    333-334 of the source end in [\\] and not in a line continuation). *)
Definition detail_html (summary inner : str) : str :=
  lit "<details>" ++ [c_nl] ++ lit "<summary>" ++ sanitize summary ++ lit "</summary>"
  ++ [c_nl] ++ inner ++ [c_bslash; c_nl] ++ crep 7 c_tab ++ lit " n</details>".

(** lib.rs:391-417. *)
Definition task_html (c : taskbox) (t : str) : str :=
  match c with
  | Checked =>
      lit "<li class=""task-list-item""><input type=""checkbox"" class=""task-list-item-checkbox"" checked="""">"
      ++ sanitize t ++ lit "</li>"
  | Unchecked =>
      lit "<li class=""task-list-item""><input type=""checkbox"" class=""task-list-item-checkbox"">"
      ++ sanitize t ++ lit "</li>"
  end.

(** lib.rs:364-381: move from quote level [q] to [l]. *)
Definition quote_move (q l : nat) : str :=
  if l =? q then []
  else if l <? q then nrep (q - l) (lit "</blockquote>")
  else nrep (l - q) (lit "<blockquote>" ++ [c_nl]).

Definition is_plaintext (t : token) : bool :=
  match t with Plaintext _ => true | _ => false end.

(** lib.rs:419 [headings.len() != rows[0].len()]: [None] is the out-of-bounds
    panic of [rows[0]]. *)
Definition row0_len {A} (rows : list (list A)) : option nat :=
  match rows with [] => None | r :: _ => Some (length r) end.

(** lib.rs:426-436. *)
Definition th_html (h : alignment * str) : str :=
  [c_tab; c_tab] ++ lit "<th style=""text-align: " ++ fmt_alignment (fst h) ++ lit """>"
  ++ sanitize (snd h) ++ lit "</th>".

(** lib.rs:487-495. *)
Definition td_html (a : alignment) (row_text : str) : str :=
  [c_nl; c_tab; c_tab] ++ lit "<td style=""text-align: " ++ fmt_alignment a ++ lit """>"
  ++ row_text ++ lit "</td>".

(** lib.rs:547-566. *)
Definition ref_html (r : str * str) : str :=
  [c_tab; c_tab] ++ lit "<li id=""fn:1"" role=""doc-endnote"">"
  ++ [c_tab; c_tab; c_tab] ++ lit "<p>" ++ sanitize (snd r)
  ++ lit "<a href=""#fnref:" ++ sanitize (fst r)
  ++ lit """ class=""reversefootnote"" role=""doc-backlink"">" ++ [8617%N] (* U+21A9 *)
  ++ lit "</a></p>" ++ [c_tab; c_tab] ++ lit "</li>".
Definition refs_html (rs : list (str * str)) : str :=
  match rs with
  | [] => []
  | _ =>
      lit "<div class=""footnotes"" role=""doc-endnotes"">" ++ [c_nl]
      ++ [c_tab] ++ lit "<ol>" ++ [c_nl]
      ++ flat_map ref_html rs
      ++ [c_tab] ++ lit "</ol>" ++ [c_nl] ++ lit "</div>" ++ [c_nl]
  end.

(** lib.rs:522-566: after the loop. *)
Definition ends_nl (s : str) : bool := ends_with [c_nl] s.
Definition finish (p : pstate) : str :=
  let h1 := html p ++ (if in_paragraph p then lit "</p>" ++ [c_nl] else []) in
  let h2 := h1 ++ nrep (quote_level p) (lit "</blockquote>" ++ [c_nl]) in
  let h3 := h2 ++ (if in_task_list p || in_unordered_list p then lit "</ul>" else []) in
  let h4 := h3 ++ (if in_ordered_list p then lit "</ol>" else []) in
  let h5 := if ends_nl h4 then h4 else h4 ++ [c_nl] in
  let h6 := if in_code p
            then (if ends_nl h5 then h5 else h5 ++ [c_nl]) ++ lit "</code></pre>"
            else h5 in
  h6 ++ refs_html (references p).

Section Parser.
(** [Parser::render] (lib.rs:30) and [Parser::parse] (lib.rs:52), for the
    recursive calls. *)
Variable RENDER : str -> res str.
Variable PARSE : list token -> res str.

(** lib.rs:235-258: one child of an unordered list entry. *)
Definition pre_code_pad (s : str) : str :=
  replace (lit "<pre><code>") (lit "<pre><code>  ") s.
Definition list_child (t : token) : res str :=
  match t with
  | Plaintext text =>
      if starts_with [c_tab; c_tab] text
      then bind (RENDER (trim_start_by (ceq c_sp) (skipn 1 text)))
                (fun h => Ret (pre_code_pad h))
      else bind (RENDER (trim_start_by (ceq c_sp) text))
                (fun h => Ret (pre_code_pad h))
  | _ => Ret []
  end.

(** lib.rs:442-486: one token of a table cell [elem]. *)
Definition cell_token (elem : list token) (t : token) : res str :=
  match t with
  | Plaintext s => Ret (sanitize s)
  | Italic t => Ret (lit "<em>" ++ sanitize t ++ lit "</em>")
  | Bold t => Ret (lit "<strong>" ++ sanitize t ++ lit "</strong>")
  | BoldItalic t => Ret (lit "<strong><em>" ++ sanitize t ++ lit "</em></strong>")
  | LineBreak => Ret (lit "<br>")
  | HorizontalRule => Ret (lit "<hr />")
  | Strikethrough t => Ret (lit "<strike>" ++ sanitize t ++ lit "</strike>")
  | _ => PARSE elem
  end.

(** lib.rs:440-496 and 438-498: cells and rows. *)
Definition cell_html (e : alignment * list token) : res str :=
  bind (mapM (cell_token (snd e)) (snd e)) (fun parts => Ret (td_html (fst e) (concat parts))).
Definition row_html (row : list (alignment * list token)) : res str :=
  bind (mapM cell_html row) (fun cs =>
    Ret ([c_nl; c_tab] ++ lit "<tr>" ++ concat cs ++ [c_nl; c_tab] ++ lit "</tr>")).

(** lib.rs:422-499. *)
Definition table_html (headings : list (alignment * str))
    (rows : list (list (alignment * list token))) : res str :=
  bind (mapM row_html rows) (fun rs =>
    Ret (lit "<table class=""table table-bordered"">" ++ [c_nl; c_tab] ++ lit "<thead>"
         ++ [c_nl; c_tab] ++ lit "<tr>" ++ [c_nl]
         ++ flat_map th_html headings
         ++ [c_tab] ++ lit "</tr>" ++ [c_nl; c_tab] ++ lit "</thead>" ++ [c_nl; c_tab]
         ++ lit "<tbody>" ++ concat rs
         ++ [c_nl; c_tab] ++ lit "</tbody>" ++ [c_nl] ++ lit "</table>")).

(** lib.rs:141-519: the second [match token]. *)
Definition body (tok : token) (p : pstate) : res pstate :=
  match tok with
  | Plaintext t => Ret (if is_blank t then p else push (plaintext_html t) p)
  | Header l t lbl => Ret (push (header_html l t lbl) p)
  | OrderedListEntry t =>
      let p1 := if in_ordered_list p then p
                else push (lit "<ol>" ++ [c_nl]) (set_ol true p) in
      Ret (push (lit "<li>" ++ [c_nl] ++ sanitize t ++ lit "</li>" ++ [c_nl]) p1)
  | UnorderedListEntry toks =>
      let p1 := if in_unordered_list p then p
                else push (lit "<ul>" ++ [c_nl]) (set_ul true p) in
      bind (mapM list_child toks) (fun parts =>
        Ret (push (lit "<li>"
                   ++ (if forallb is_plaintext toks then [c_nl] else [])
                   ++ concat parts ++ lit "</li>" ++ [c_nl]) p1))
  | Image l t => Ret (push (image_html l t) p)
  | Link l t ht => Ret (push (link_html l t ht) p)
  | Detail summary inner =>
      let p1 := if in_paragraph p
                then set_par false (push (lit "</p>" ++ [c_nl]) p) else p in
      bind (PARSE inner) (fun ih => Ret (push (detail_html summary ih) p1))
  | Italic t => Ret (push (lit "<em>" ++ sanitize t ++ lit "</em>") p)
  | Bold t => Ret (push (lit "<strong>" ++ sanitize t ++ lit "</strong>") p)
  | BoldItalic t => Ret (push (lit "<strong><em>" ++ sanitize t ++ lit "</em></strong>") p)
  | BlockQuote l t =>
      let p1 := if in_paragraph p
                then set_par false (push (lit "</p>") p) else p in
      let p2 := set_quote l (push (quote_move (quote_level p1) l) p1) in
      if is_empty t then Ret p2
      else bind (RENDER (sanitize (trim_start_by (ceq c_sp) t)))
                (fun h => Ret (push (replace [c_tab] (lit "  ") h) p2))
  | TaskListItem c t =>
      let p1 := if in_task_list p then p
                else push (lit "<ul class=""contains-task-list"">") (set_task true p) in
      Ret (push (task_html c t) p1)
  | Table headings rows =>
      match row0_len rows with
      | None => Panic
      | Some n => if negb (length headings =? n) then Ret p
                  else bind (table_html headings rows) (fun h => Ret (push h p))
      end
  | Strikethrough t => Ret (push (lit "<strike>" ++ sanitize t ++ lit "</strike>") p)
  | Code t => Ret (push (sanitize t) p)
  | HorizontalRule => Ret (push (lit "<hr />" ++ [c_nl]) p)
  | Newline => Ret p
  | Tab => Ret (push [c_tab] p)
  | DoubleTab => Ret (push [c_tab; c_tab] p)
  | Footnote ref_id text => Ret (add_ref (ref_id, text) p)
  | CodeBlock _ _ | LineBreak => Ret p
  end.

(** lib.rs:65-520: the token loop. *)
Fixpoint parse_loop (toks : list token) (p : pstate) : res pstate :=
  match toks with
  | [] => Ret p
  | t :: ts => bind (body t (pre t p)) (parse_loop ts)
  end.

(** lib.rs:52-570 [parse]. *)
Definition parse_body (toks : list token) : res str :=
  bind (parse_loop toks pinit) (fun p => Ret (finish p)).

End Parser.

(** The knot.  [fuel] bounds the nesting depth of calls between [lex], [parse]
    and [render] (and the rounds of the loop at lexer.rs:892). *)
Fixpoint lex (fuel : nat) (source : str) (ignore : list char) {struct fuel}
  : res (list token) :=
  match fuel with
  | O => Hang
  | S f =>
      lex_loop (lex f) (fun s ig => bind (lex f s ig) (parse f)) f
               (S (length source)) ignore None source
  end
with parse (fuel : nat) (toks : list token) {struct fuel} : res str :=
  match fuel with
  | O => Hang
  | S f => parse_body (fun s => bind (lex f s []) (parse f)) (parse f) toks
  end.

(** lib.rs:35-37 [render_ignore] and lib.rs:30-33 [render]. *)
Definition render_ignore (fuel : nat) (source : str) (ignore : list char) : res str :=
  bind (lex fuel source ignore) (parse fuel).
Definition render (fuel : nat) (source : str) : res str := render_ignore fuel source [].

(** The observable outcomes of [Parser::render]. *)
Definition renders (source out : str) : Prop := exists fuel, render fuel source = Ret out.
Definition crashes (source : str) : Prop := exists fuel, render fuel source = Panic.
Definition runs_forever (source : str) : Prop := forall fuel, render fuel source = Hang.
