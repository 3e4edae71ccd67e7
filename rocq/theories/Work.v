(** * Work: how much the renderer is asked to do.

    The functions of Lexer.v and Parser.v that call [Parser::lex], [Parser::render_ignore],
    [Parser::render] or [Parser::parse], once more, with a count: a call of [lex] counts one and
    the characters of its text, a call of [parse] one and the number of its tokens.  Forgetting the count
    gives the functions of Lexer.v and Parser.v back ([work_erase] in WorkFacts.v).  Not
    counted is what is done between calls, namely the loops of the functions over their own text. *)
From Coq Require Import Ascii String.
From Verif Require Import Strings Token Iter Lexer Parser.
Open Scope list_scope.

(** A result and the work up to it, also if it is a panic. *)
Definition work (A : Type) : Type := (res A * nat)%type.
Definition free {A} (r : res A) : work A := (r, 0).
Definition charge {A} (n : nat) (m : work A) : work A := (fst m, n + snd m).
Definition wbind {A B} (m : work A) (k : A -> work B) : work B :=
  match fst m with
  | Ret a => charge (snd m) (k a)
  | Panic => (Panic, snd m)
  | Hang => (Hang, snd m)
  end.
Fixpoint mapW {A B} (f : A -> work B) (l : list A) : work (list B) :=
  match l with
  | [] => free (Ret [])
  | x :: l' => wbind (f x) (fun y => wbind (mapW f l') (fun ys => free (Ret (y :: ys))))
  end.

Section Lexer.
Variable LEX : str -> list char -> work (list token).
Variable RENDER_IGNORE : str -> list char -> work str.
Variable LOOP : nat.

(** lexer.rs:203-255 *)
Definition lex_heading_w (r : cursor) : work lres :=
  let (hashes, r1) := consume_while (ceq c_hash) r in
  if 6 <? length hashes then free (Ret (LErr hashes r1))
  else match heading_sep r1 with
  | None => free (Ret (LErr hashes r1))
  | Some r2 =>
      let (line0, r3) := consume_while not_nl r2 in
      match heading_id line0 with
      | None => free Panic
      | Some line =>
          if forallb (ceq c_hash) line
          then free (Ret (LOk (Header (length hashes) [] None) r3))
          else
            wbind (RENDER_IGNORE (trim_end_by is_sp_tab (heading_trailing line)) [c_hash])
                  (fun html =>
                     free (Ret (LOk (Header (length hashes) (heading_unwrap html) None) r3)))
      end
  end.

(** lexer.rs:532-557 *)
Definition list_item_w (line : str) (toks : list token) (r4 : cursor) : work lres :=
  if starts_with (lit " [ ] ") line
  then free (Ret (LOk (TaskListItem Unchecked (skipn 5 line)) r4))
  else if starts_with (lit " [x] ") line || starts_with (lit " [X] ") line
  then free (Ret (LOk (TaskListItem Checked (skipn 5 line)) r4))
  else match peek_line_ahead r4 with
  | Some l =>
      if starts_with (lit "  ") l
      then let (sub, r5) := consume_line_ahead r4 in
           wbind (LEX sub []) (fun subtoks =>
             free (Ret (LOk (UnorderedListEntry (toks ++ subtoks)) r5)))
      else if starts_with [c_tab] l
      then let (sub, r5) := consume_line_ahead r4 in
           wbind (LEX (skipn 1 sub) []) (fun subtoks =>
             free (Ret (LOk (UnorderedListEntry (toks ++ subtoks)) r5)))
      else free (Ret (LOk (UnorderedListEntry toks) r4))
  | None => free (Ret (LOk (UnorderedListEntry toks) r4))
  end.

(** lexer.rs:487-558 *)
Definition lex_plus_minus_w (r : cursor) : work lres :=
  let (s, r1) := consume_while (fun c => ceq c c_minus || ceq c c_plus) r in
  match length s with
  | 0 => free (Ret (LErr (lit "string length error") r1))
  | 1 =>
      let (first, r2) := consume_while not_nl r1 in
      match list_paragraphs (S (length r2)) r2 with
      | None => free Hang
      | Some (more, r3) =>
          let line := substring_from r1 r3 in
          list_item_w line (Plaintext first :: more) (skip_if_eq c_nl r3)
      end
  | 2 => free (Ret (LErr (substring_from r r1) r1))
  | _ => free (Ret (LOk HorizontalRule r1))
  end.

(** lexer.rs:867-907 *)
Definition parse_details_w (r : cursor) : work lres :=
  let (summary0, r1) :=
    consume_while (fun c => negb (ceq c c_nl) && negb (ceq c c_cr)) r in
  let r2 := skip_if_eq c_cr r1 in
  if negb (starts_with (lit "<summary>") summary0)
     || negb (ends_with (lit "</summary>") summary0)
  then free (Ret (LErr summary0 r2))
  else match strip_prefix (lit "<summary>") summary0 with
  | None => free Panic
  | Some s1 =>
      let summary := or_empty (strip_suffix (lit "</summary>") s1) in
      let (text0, r3) := consume_until_tail_is (lit "</details>") r2 in
      match (if contains (lit "<details>") text0
             then details_loop LOOP r2 r3 text0
             else Some (text0, r3)) with
      | None => free Hang
      | Some (text, r4) =>
          wbind (LEX (or_empty (strip_suffix (lit "</details>") text)) [])
                (fun toks => free (Ret (LOk (Detail summary toks) r4)))
      end
  end.

(** lexer.rs:817-865 *)
Definition lex_side_carrot_w (r : cursor) : work lres :=
  match next_if_eq c_lt r with
  | None => free (Ret (LErr [] r))
  | Some r1 =>
      let (s, r2) := consume_while (fun c => negb (ceq c c_gt)) r1 in
      match next_if_eq c_gt r2 with
      | None => free (Ret (LErr s r2))
      | Some r3 =>
          if str_eqb s (lit "details") then
            let r4 := skip_if_eq c_cr r3 in
            match next_if_eq c_nl r4 with
            | None => free (Ret (LErr s r4))
            | Some r5 => parse_details_w r5
            end
          else match s with
          | [] => free (Ret (LErr (lit "<>") r3))
          | _ =>
              if existsb is_whitespace s
              then free (Ret (LErr (substring_from r r3) r3))
              else match validate_link s with
              | inl (mkUrl c (Some sch)) =>
                  free (Ret (LOk (Link (mkUrl c (Some sch)) None None) r3))
              | _ => free (Ret (LErr (substring_from r r3) r3))
              end
          end
      end
  end.

(** lexer.rs:966-970 *)
Definition lex_row_w (l : str) : work (list (list token)) :=
  mapW (fun e => wbind (LEX e []) (fun toks => free (Ret (filter is_usable_in_table toks))))
       (cells l).

(** lexer.rs:909-979 *)
Definition lex_pipes_w (r : cursor) : work lres :=
  match table_lines (S (length r)) r with
  | None => free Hang
  | Some (lines, r1) =>
      match lines with
      | head :: align :: body =>
          if length lines <? 3 then free (Ret (LErr (substring_from r r1) r1))
          else if negb (forallb (fun l => count_matches [c_pipe] l
                                          =? count_matches [c_pipe] head) lines)
          then free (Ret (LErr (substring_from r r1) r1))
          else
            let headings := cells head in
            let alignments := map cell_alignment (cells align) in
            wbind (mapW (fun l => wbind (lex_row_w l)
                                   (fun cs => free (Ret (combine alignments cs)))) body)
                  (fun rows => free (Ret (LOk (Table (combine alignments headings) rows) r1)))
      | _ => free (Ret (LErr (substring_from r r1) r1))
      end
  end.

(** lexer.rs:48-201 *)
Definition dispatch_w (ignore : list char) (last : option token) (c : char) (r : cursor)
  : work lres :=
  if ceq c c_hash && negb (mem_char c_hash ignore) then lex_heading_w r
  else if ceq c c_nl then free (Ret (lex_newlines r))
  else if ceq c c_sp || ceq c c_tab then free (lex_tabs_spaces last r)
  else if is_digit c then free (lex_numbers r)
  else if ceq c c_star || ceq c c_under then free (Ret (lex_asterisk_underscore r))
  else if ceq c c_minus || ceq c c_plus then lex_plus_minus_w r
  else if ceq c c_gt then free (Ret (lex_blockquotes r))
  else if ceq c c_tilde then free (Ret (lex_tilde r))
  else if ceq c c_tick then free (Ret (lex_backticks r))
  else if ceq c c_lbrk then free (lex_links r)
  else if ceq c c_bang then free (lex_images r)
  else if ceq c c_lt then lex_side_carrot_w r
  else if ceq c c_pipe then lex_pipes_w r
  else if ceq c c_bslash then free (Ret (lex_escaped_character r))
  else free (Ret (LOk (Plaintext [c]) (next r))).

Definition next_token_w (ignore : list char) (last : option token) (r : cursor)
  : work (option (token * cursor)) :=
  match r with
  | [] => free (Ret None)
  | c :: _ =>
      wbind (dispatch_w ignore last c r) (fun l =>
        match l with
        | LOk t r' => free (Ret (Some (t, r')))
        | LErr e r' => free (Ret (Some (Plaintext e, r')))
        end)
  end.

(** lib.rs:39-50 *)
Fixpoint lex_loop_w (n : nat) (ignore : list char) (last : option token) (r : cursor)
  : work (list token) :=
  match n with
  | O => free Hang
  | S n' =>
      wbind (next_token_w ignore last r) (fun o =>
        match o with
        | None => free (Ret [])
        | Some (t, r') =>
            wbind (lex_loop_w n' ignore (Some t) r') (fun ts => free (Ret (t :: ts)))
        end)
  end.
End Lexer.

Section Parser.
Variable RENDER : str -> work str.
Variable PARSE : list token -> work str.

(** lib.rs:235-258 *)
Definition list_child_w (t : token) : work str :=
  match t with
  | Plaintext text =>
      if starts_with [c_tab; c_tab] text
      then wbind (RENDER (trim_start_by (ceq c_sp) (skipn 1 text)))
                 (fun h => free (Ret (pre_code_pad h)))
      else wbind (RENDER (trim_start_by (ceq c_sp) text))
                 (fun h => free (Ret (pre_code_pad h)))
  | _ => free (Ret [])
  end.

(** lib.rs:442-486 *)
Definition cell_token_w (elem : list token) (t : token) : work str :=
  match t with
  | Plaintext _ | Italic _ | Bold _ | BoldItalic _ | LineBreak | HorizontalRule | Strikethrough _ =>
      free (cell_token (fun _ => Ret []) elem t)
  | _ => PARSE elem
  end.

(** lib.rs:438-498 *)
Definition cell_html_w (e : alignment * list token) : work str :=
  wbind (mapW (cell_token_w (snd e)) (snd e)) (fun parts => free (Ret (td_html (fst e) (concat parts)))).
Definition row_html_w (row : list (alignment * list token)) : work str :=
  wbind (mapW cell_html_w row) (fun cs =>
    free (Ret ([c_nl; c_tab] ++ lit "<tr>" ++ concat cs ++ [c_nl; c_tab] ++ lit "</tr>"))).

(** lib.rs:422-499 *)
Definition table_html_w (headings : list (alignment * str))
    (rows : list (list (alignment * list token))) : work str :=
  wbind (mapW row_html_w rows) (fun rs =>
    free (Ret (lit "<table class=""table table-bordered"">" ++ [c_nl; c_tab] ++ lit "<thead>"
         ++ [c_nl; c_tab] ++ lit "<tr>" ++ [c_nl]
         ++ flat_map th_html headings
         ++ [c_tab] ++ lit "</tr>" ++ [c_nl; c_tab] ++ lit "</thead>" ++ [c_nl; c_tab]
         ++ lit "<tbody>" ++ concat rs
         ++ [c_nl; c_tab] ++ lit "</tbody>" ++ [c_nl] ++ lit "</table>"))).

(** lib.rs:141-519; the arms without calls are those of [body]. *)
Definition body_w (tok : token) (p : pstate) : work pstate :=
  match tok with
  | UnorderedListEntry toks =>
      let p1 := if in_unordered_list p then p
                else push (lit "<ul>" ++ [c_nl]) (set_ul true p) in
      wbind (mapW list_child_w toks) (fun parts =>
        free (Ret (push (lit "<li>"
                   ++ (if forallb is_plaintext toks then [c_nl] else [])
                   ++ concat parts ++ lit "</li>" ++ [c_nl]) p1)))
  | Detail summary inner =>
      let p1 := if in_paragraph p
                then set_par false (push (lit "</p>" ++ [c_nl]) p) else p in
      wbind (PARSE inner) (fun ih => free (Ret (push (detail_html summary ih) p1)))
  | BlockQuote l t =>
      let p1 := if in_paragraph p
                then set_par false (push (lit "</p>") p) else p in
      let p2 := set_quote l (push (quote_move (quote_level p1) l) p1) in
      if is_empty t then free (Ret p2)
      else wbind (RENDER (sanitize (trim_start_by (ceq c_sp) t)))
                 (fun h => free (Ret (push (replace [c_tab] (lit "  ") h) p2)))
  | Table headings rows =>
      match row0_len rows with
      | None => free Panic
      | Some n => if negb (length headings =? n) then free (Ret p)
                  else wbind (table_html_w headings rows) (fun h => free (Ret (push h p)))
      end
  | _ => free (body (fun _ => Ret []) (fun _ => Ret []) tok p)
  end.

(** lib.rs:65-520 *)
Fixpoint parse_loop_w (toks : list token) (p : pstate) : work pstate :=
  match toks with
  | [] => free (Ret p)
  | t :: ts => wbind (body_w t (pre t p)) (parse_loop_w ts)
  end.

(** lib.rs:52-570 *)
Definition parse_body_w (toks : list token) : work str :=
  wbind (parse_loop_w toks pinit) (fun p => free (Ret (finish p))).
End Parser.

(** lib.rs:39-50 and 52-570, as in Parser.v, with what a call counts. *)
Fixpoint lex_w (fuel : nat) (source : str) (ignore : list char) {struct fuel}
  : work (list token) :=
  match fuel with
  | O => free Hang
  | S f => charge (1 + length source)
      (lex_loop_w (lex_w f) (fun s ig => wbind (lex_w f s ig) (parse_w f)) f
               (S (length source)) ignore None source)
  end
with parse_w (fuel : nat) (toks : list token) {struct fuel} : work str :=
  match fuel with
  | O => free Hang
  | S f => charge (1 + length toks)
      (parse_body_w (fun s => wbind (lex_w f s []) (parse_w f)) (parse_w f) toks)
  end.

(** lib.rs:30-33 [render]: its result and the work for it. *)
Definition render_w (fuel : nat) (source : str) : work str :=
  wbind (lex_w fuel source []) (parse_w fuel).
