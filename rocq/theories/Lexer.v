(** * Lexer: model of /repo/gfm/src/lexer.rs.

    Every [lex_*] function takes the cursor and returns [LOk token cursor]
    ([Ok(token)]) or [LErr content cursor] ([Err(ParseError { content })]),
    wrapped in [res] where the Rust code can panic or run forever.  The two
    recursive entry points the lexer calls back ([Parser::lex], lib.rs:39, and
    [Parser::render_ignore], lib.rs:35) are parameters here; Parser.v ties the
    knot.  [debug!]/[warn!] logging is not modelled. *)
From Coq Require Import Ascii String.
From Verif Require Import Strings Token Iter.
Open Scope list_scope.

(** Outcome of a Rust computation: a value, a panic, or "still running after the
    given amount of fuel". *)
Inductive res (A : Type) :=
| Ret (a : A)
| Panic
| Hang.
Arguments Ret {A} a.
Arguments Panic {A}.
Arguments Hang {A}.

Definition bind {A B} (m : res A) (k : A -> res B) : res B :=
  match m with
  | Ret a => k a
  | Panic => Panic
  | Hang => Hang
  end.

Fixpoint mapM {A B} (f : A -> res B) (l : list A) : res (list B) :=
  match l with
  | [] => Ret []
  | x :: l' => bind (f x) (fun y => bind (mapM f l') (fun ys => Ret (y :: ys)))
  end.

(** [Result<Token, ParseError>] together with the iterator after the call. *)
Inductive lres :=
| LOk (t : token) (r : cursor)
| LErr (content : str) (r : cursor).

Definition not_nl (c : char) : bool := negb (ceq c c_nl).
Definition is_sp_tab (c : char) : bool := ceq c c_tab || ceq c c_sp.

Section Lexer.
(** [Parser::lex(source, ignore)], lib.rs:39. *)
Variable LEX : str -> list char -> res (list token).
(** [Parser::render_ignore(source, ignore)], lib.rs:35. *)
Variable RENDER_IGNORE : str -> list char -> res str.
(** Fuel for the one loop that need not terminate (lexer.rs:892). *)
Variable LOOP : nat.

(** lexer.rs:221-230: the custom-id branch of [lex_heading]; [None] is the panic
    of one of the [unwrap]s at 225, 227, 229.  (The first [unwrap], 225, cannot
    fail: [heading] is a prefix of [line].) *)
Definition heading_id (line : str) : option str :=
  if contains (lit "{#") line && contains_char c_rbrace line then
    let heading := match split_once c_lbrace line with
                   | Some (a, _) => a | None => [] end in
    match strip_prefix heading line with
    | None => None
    | Some l1 =>
        match strip_prefix (lit "{#") l1 with
        | None => None
        | Some l2 => strip_suffix (lit "}") l2
        end
    end
  else Some line.

(** lexer.rs:231-238: drop an optional trailing run of '#'. *)
Definition heading_trailing (line : str) : str :=
  match rsplit_once c_sp (trim_end line) with
  | Some (l, r) => if forallb (ceq c_hash) r then l else line
  | None => line
  end.

(** lexer.rs:247-252: unwrap the rendered paragraph. *)
Definition heading_unwrap (html : str) : str :=
  trim (or_empty (strip_suffix (lit "</p>" ++ [c_nl])
                    (or_empty (strip_prefix (lit "<p>") html)))).

(** lexer.rs:211-216: the separator after the hashes. [None]: return [Err]. *)
Definition heading_sep (r : cursor) : option cursor :=
  match next_if_eq c_sp r with
  | Some r' => Some r'
  | None => match next_if_eq c_tab r with
            | Some r' => Some r'
            | None => if peek_is c_nl r then Some r else None
            end
  end.

(** lexer.rs:203-255 [lex_heading]. *)
Definition lex_heading (r : cursor) : res lres :=
  let (hashes, r1) := consume_while (ceq c_hash) r in
  if 6 <? length hashes then Ret (LErr hashes r1)
  else match heading_sep r1 with
  | None => Ret (LErr hashes r1)
  | Some r2 =>
      let (line0, r3) := consume_while not_nl r2 in
      match heading_id line0 with
      | None => Panic
      | Some line =>
          if forallb (ceq c_hash) line
          then Ret (LOk (Header (length hashes) [] None) r3)
          else
            bind (RENDER_IGNORE (trim_end_by is_sp_tab (heading_trailing line)) [c_hash])
                 (fun html =>
                    Ret (LOk (Header (length hashes) (heading_unwrap html) None) r3))
      end
  end.

(** lexer.rs:257-263 [lex_newlines]. *)
Definition lex_newlines (r : cursor) : lres :=
  let (s, r1) := consume_while (ceq c_nl) r in
  if 2 <=? length s then LOk Newline r1 else LErr s r1.

(** lexer.rs:294, 300, 305: tests on [tokens.last()]. *)
Definition last_is_plaintext (o : option token) : bool :=
  match o with Some (Plaintext _) => true | _ => false end.
Definition last_is_newline (o : option token) : bool :=
  match o with Some Newline => true | _ => false end.

(** lexer.rs:265-331 [lex_tabs_spaces].  [last] is [tokens.last()].  The
    recursive call (314) is made on a strictly shorter cursor; [n] is its bound
    (the length of the cursor, see [lex_tabs_spaces] below); running out of it
    gives [None].  The arm at 305-307 has the same result as the arm at 308. *)
Fixpoint lex_tabs_spaces_go (n : nat) (last : option token) (r : cursor)
  : option lres :=
  match n with
  | O => None
  | S n' =>
    let (ws, r1) := consume_while is_sp_tab r in
    let has_tab := contains_char c_tab ws in
    if (1 <=? length ws) && (length ws <=? 3) && negb has_tab
    then Some (LErr ws r1)
    else if (2 <=? length ws) && negb has_tab && peek_is c_nl r1
    then Some (LOk LineBreak r1)
    else
      let (line, r2) := consume_until_tail_is [c_nl] r1 in
      if str_eqb ws (lit "    ")
         && (last_is_plaintext last || last_is_newline last)
         && contains_char c_hash line
      then Some (LErr line r2)
      else if str_eqb ws [c_tab] || str_eqb ws (lit "    ")
              || str_eqb ws (lit "  " ++ [c_tab])
      then Some (LOk (Code line) r2)
      else if str_eqb ws [c_tab; c_tab]
      then Some (LOk (Code (c_tab :: line)) r2)
      else if peek_is c_tab r2 || peek_is c_sp r2
      then match lex_tabs_spaces_go n' last r2 with
           | None => None
           | Some (LOk (CodeBlock _ _) r3) =>
               Some (LOk (CodeBlock (substring_from r r3) []) r3)
           | Some (LErr e r3) => Some (LErr e r3)
           | Some (LOk _ r3) => Some (LErr [] r3)
           end
      else Some (LErr (substring_from r r2) r2)
  end.
Definition lex_tabs_spaces (last : option token) (r : cursor) : res lres :=
  match lex_tabs_spaces_go (length r) last r with
  | Some l => Ret l
  | None => Hang
  end.

(** lexer.rs:333-355 [lex_numbers]; called with a digit under the cursor, so the
    [unwrap] at 335 succeeds. *)
Definition lex_numbers (r : cursor) : res lres :=
  match r with
  | [] => Panic
  | c :: r1 =>
      match next_if_eq c_dot r1 with
      | Some r2 =>
          match next_if_eq c_sp r2 with
          | None => Ret (LErr (substring_from r r2) r2)
          | Some r3 => let (s, r4) := consume_while not_nl r3 in
                       Ret (LOk (OrderedListEntry s) r4)
          end
      | None => Ret (LErr [c] r1)
      end
  end.

(** lexer.rs:357-372 [lex_escaped_character]. *)
Definition lex_escaped_character (r : cursor) : lres :=
  let r1 := next r in
  match r1 with
  | [] => LErr (lit "EOF") r1
  | c :: r2 =>
      if ceq c c_hash
      then let (hashes, r3) := consume_while (ceq c_hash) r1 in
           LOk (Plaintext hashes) r3
      else LOk (Plaintext [c]) r2
  end.

Definition is_star_under (c : char) : bool := ceq c c_star || ceq c c_under.

(** lexer.rs:414-433 and 434-453: the arms for two and three delimiters. *)
Definition lex_strong (n : nat) (mk : str -> token) (r r1 : cursor) : lres :=
  let (s, r2) := consume_while (fun c => negb (is_star_under c)) r1 in
  let (trailing, r3) := consume_while is_star_under r2 in
  if length trailing =? n then LOk (mk s) r3
  else LErr (substring_from r r3) r3.

(** lexer.rs:374-464 [lex_asterisk_underscore].  The test at 400-402,
    [peek != '*' || peek != '_'], is always true, so its [else] is dead. *)
Definition lex_asterisk_underscore (r : cursor) : lres :=
  let (asterunds, r1) :=
    consume_while (fun c => ceq c c_star || ceq c c_under || ceq c c_tab) r in
  match (if length asterunds =? 1 then next_if_eq c_sp r1 else None) with
  | Some r2 =>
      let (s, r3) := consume_while not_nl r2 in
      LOk (UnorderedListEntry [Plaintext s]) (next r3)
  | None =>
      if forallb (ceq c_star) asterunds && peek_is c_nl r1
      then LOk HorizontalRule r1
      else match length asterunds with
      | 1 => let (s, r2) := consume_while (fun c => negb (is_star_under c)) r1 in
             LOk (Italic s) (next r2)
      | 2 => lex_strong 2 Bold r r1
      | 3 => lex_strong 3 BoldItalic r r1
      | _ =>
          if forallb (ceq c_star) (replace_char c_tab [] asterunds)
             || forallb (ceq c_under) asterunds
          then LOk HorizontalRule r1
          else LErr asterunds r1
      end
  end.

(** lexer.rs:466-485 [lex_blockquotes]; [right_arrows.len() as u8] is the
    remainder modulo 256. *)
Definition lex_blockquotes (r : cursor) : lres :=
  let (arrows, r1) := consume_while (ceq c_gt) r in
  if peek_is c_sp r1 || peek_is c_tab r1
  then let (s, r2) := consume_while not_nl r1 in
       LOk (BlockQuote (length arrows mod 256) s) (skip_if_eq c_nl r2)
  else LErr arrows r1.

(** lexer.rs:519-529: continuation paragraphs of a list item.  Each round
    consumes at least three chars, so the length of the cursor bounds them. *)
Fixpoint list_paragraphs (n : nat) (r : cursor) : option (list token * cursor) :=
  match n with
  | O => None
  | S n' =>
      if ahead_is [c_nl; c_nl; c_tab] r
      then let (s, r1) := consume_while not_nl (next (next (next r))) in
           match list_paragraphs n' r1 with
           | Some (toks, r2) => Some (Plaintext s :: toks, r2)
           | None => None
           end
      else Some ([], r)
  end.

(** lexer.rs:532-557: the tail of [lex_plus_minus]. *)
Definition list_item_token (line : str) (toks : list token) (r4 : cursor) : res lres :=
  if starts_with (lit " [ ] ") line
  then Ret (LOk (TaskListItem Unchecked (skipn 5 line)) r4)
  else if starts_with (lit " [x] ") line || starts_with (lit " [X] ") line
  then Ret (LOk (TaskListItem Checked (skipn 5 line)) r4)
  else match peek_line_ahead r4 with
  | Some l =>
      if starts_with (lit "  ") l
      then let (sub, r5) := consume_line_ahead r4 in
           bind (LEX sub []) (fun subtoks =>
             Ret (LOk (UnorderedListEntry (toks ++ subtoks)) r5))
      else if starts_with [c_tab] l
      then let (sub, r5) := consume_line_ahead r4 in
           bind (LEX (skipn 1 sub) []) (fun subtoks =>
             Ret (LOk (UnorderedListEntry (toks ++ subtoks)) r5))
      else Ret (LOk (UnorderedListEntry toks) r4)
  | None => Ret (LOk (UnorderedListEntry toks) r4)
  end.

(** lexer.rs:487-558 [lex_plus_minus]. *)
Definition lex_plus_minus (r : cursor) : res lres :=
  let (s, r1) := consume_while (fun c => ceq c c_minus || ceq c c_plus) r in
  match length s with
  | 0 => Ret (LErr (lit "string length error") r1)
  | 1 =>
      let (first, r2) := consume_while not_nl r1 in
      match list_paragraphs (S (length r2)) r2 with
      | None => Hang
      | Some (more, r3) =>
          let line := substring_from r1 r3 in
          list_item_token line (Plaintext first :: more) (skip_if_eq c_nl r3)
      end
  | 2 => Ret (LErr (substring_from r r1) r1)
  | _ => Ret (LOk HorizontalRule r1)
  end.

(** lexer.rs:560-602 [lex_tilde] ([consume_while_case_holds] never returns
    [None], so the arm at 565 is dead). *)
Definition lex_tilde (r : cursor) : lres :=
  let (lead, r1) := consume_while (ceq c_tilde) r in
  match length lead with
  | 2 =>
      let (line, r2) := consume_while (fun c => negb (ceq c c_tilde)) r1 in
      let (tail, r3) := consume_while (ceq c_tilde) r2 in
      if length lead =? length tail then LOk (Strikethrough line) r3
      else LErr (substring_from r r3) r3
  | _ => LErr lead r1
  end.

(** lexer.rs:604-663 [lex_backticks]. *)
Definition lex_backticks (r : cursor) : lres :=
  let (leading, r1) := consume_while (ceq c_tick) r in
  if length leading =? 3 then
    let '(lang, r2) :=
      match next_if_eq c_nl r1 with
      | Some r2 => ([], r2)
      | None => let (l, r2) := consume_while not_nl r1 in (l, next r2)
      end in
    let (s, r3) := consume_while (fun c => negb (ceq c c_tick)) r2 in
    let (trailing, r4) := consume_while (ceq c_tick) r3 in
    if length leading =? length trailing then LOk (CodeBlock s lang) r4
    else LErr (substring_from r r4) r4
  else
    let tail := crep (length leading) c_tick in
    let (s, r2) := consume_until_tail_is tail r1 in
    if negb (ends_with tail s) then LErr (substring_from r r2) r2
    else
      let s1 := trim_end_matches tail s in
      if starts_with [c_sp] s1 && ends_with [c_sp] s1
      then LOk (Code (trim_end_by (ceq c_sp) (trim_start_by (ceq c_sp) s1))) r2
      else LOk (Code s1) r2.

(** lexer.rs:686-716: the loop over the lines of a footnote.  [inl] is [break],
    [inr] the [return Err] at 705.  Every [continue] has consumed at least one
    char, so the length of the cursor bounds the number of rounds; [None] when
    [n] runs out. *)
Fixpoint footnote_lines (n : nat) (r : cursor) : option (cursor + cursor) :=
  match n with
  | O => None
  | S n' =>
      let r1 := next (drop_while not_nl r) in
      if negb (peek_is c_sp r1) && negb (peek_is c_tab r1) then Some (inl r1)
      else match next_if_eq c_tab r1 with
      | Some r2 => footnote_lines n' r2
      | None =>
          let (spaces, r2) := consume_while (ceq c_sp) r1 in
          if (length spaces =? 2) || (length spaces =? 4)
          then footnote_lines n' r2
          else Some (inr r2)
      end
  end.

(** lexer.rs:742-789: the destination part of [lex_links], after "(".  The arm
    at 789 is dead (749 returned unless ')' or ' ' is next). *)
Definition lex_link_dest (title : str) (r r0 : cursor) : lres :=
  let (link, r1) :=
    consume_while (fun c => negb (ceq c c_rpar) && negb (ceq c c_sp)) r0 in
  match r1 with
  | [] => LErr (substring_from r r1) r1
  | _ =>
      match next_if_eq c_rpar r1 with
      | Some r2 =>
          match validate_link link with
          | inl vl => LOk (Link vl (Some title) None) r2
          | inr e => LErr e r2
          end
      | None =>
          let (hover, r2) := consume_while (fun c => negb (ceq c c_rpar)) r1 in
          let r3 := next (skip_while not_nl r2) in
          match validate_link link with
          | inl vl => LOk (Link vl (Some title) (Some hover)) r3
          | inr e => LErr e r3
          end
      end
  end.

(** lexer.rs:683-733: the footnote part of [lex_links], after ":". *)
Definition lex_footnote (title : str) (r r0 : cursor) : res lres :=
  let ref_id := or_empty (strip_prefix [c_caret] title) in
  match footnote_lines (S (length r0)) r0 with
  | None => Hang
  | Some (inr r1) => Ret (LErr (substring_from r r1) r1)
  | Some (inl r1) =>
      if existsb is_whitespace ref_id then Ret (LErr (substring_from r r1) r1)
      else Ret (LOk (Footnote ref_id (trim (substring_from r0 r1))) r1)
  end.

(** lexer.rs:665-790 [lex_links]. *)
Definition lex_links (r : cursor) : res lres :=
  match next_if_eq c_lbrk r with
  | None => Ret (LErr [] r)
  | Some r1 =>
      let (title, r2) := consume_while (fun c => negb (ceq c c_rbrk)) r1 in
      match next_if_eq c_rbrk r2 with
      | None => Ret (LErr (substring_from r r2) r2)
      | Some r3 =>
          match (if starts_with [c_caret] title then next_if_eq c_colon r3 else None) with
          | Some r4 => lex_footnote title r r4
          | None =>
              match next_if_eq c_lpar r3 with
              | None => Ret (LErr (substring_from r r3) r3)
              | Some r4 => Ret (lex_link_dest title r r4)
              end
          end
      end
  end.

(** lexer.rs:792-816 [lex_images]. *)
Definition lex_images (r : cursor) : res lres :=
  match next_if_eq c_bang r with
  | None => Ret (LErr [] r)
  | Some r1 =>
      bind (lex_links r1) (fun l =>
        match l with
        | LErr _ r2 => Ret (LErr (substring_from r r2) r2)
        | LOk (Link link title _) r2 => Ret (LOk (Image (url_content link) title) r2)
        | LOk _ r2 => Ret (LErr (lit "Non link token returned from lex_links") r2)
        end)
  end.

(** lexer.rs:887-901: the text of a details block.  [n] is fuel: at the end of
    the input with as many "<details>" as "</details>" the Rust loop never
    exits. [start] is [remaining_text_index]. *)
Definition opens (s : str) : nat := count_matches (lit "<details>") s.
Definition closes (s : str) : nat := count_matches (lit "</details>") s.
Fixpoint details_loop (n : nat) (start r : cursor) (text : str)
  : option (str * cursor) :=
  if opens text =? closes text
  then match n with
       | O => None
       | S n' =>
           let (_, r1) := consume_until_tail_is (lit "</details>") r in
           details_loop n' start r1 (substring_from start r1)
       end
  else Some (text, r).

(** lexer.rs:867-907 [parse_details].  [!summary_line.len() >= 20] (875) is a
    bitwise complement and hence true for every string that fits in memory, so
    the test at 873-876 is just "does not start or does not end with the tags";
    the [unwrap] at 883 then succeeds. *)
Definition parse_details (r : cursor) : res lres :=
  let (summary0, r1) :=
    consume_while (fun c => negb (ceq c c_nl) && negb (ceq c c_cr)) r in
  let r2 := skip_if_eq c_cr r1 in
  if negb (starts_with (lit "<summary>") summary0)
     || negb (ends_with (lit "</summary>") summary0)
  then Ret (LErr summary0 r2)
  else match strip_prefix (lit "<summary>") summary0 with
  | None => Panic
  | Some s1 =>
      let summary := or_empty (strip_suffix (lit "</summary>") s1) in
      let (text0, r3) := consume_until_tail_is (lit "</details>") r2 in
      match (if contains (lit "<details>") text0
             then details_loop LOOP r2 r3 text0
             else Some (text0, r3)) with
      | None => Hang
      | Some (text, r4) =>
          bind (LEX (or_empty (strip_suffix (lit "</details>") text)) [])
               (fun toks => Ret (LOk (Detail summary toks) r4))
      end
  end.

(** lexer.rs:817-865 [lex_side_carrot]. *)
Definition lex_side_carrot (r : cursor) : res lres :=
  match next_if_eq c_lt r with
  | None => Ret (LErr [] r)
  | Some r1 =>
      let (s, r2) := consume_while (fun c => negb (ceq c c_gt)) r1 in
      match next_if_eq c_gt r2 with
      | None => Ret (LErr s r2)
      | Some r3 =>
          if str_eqb s (lit "details") then
            let r4 := skip_if_eq c_cr r3 in
            match next_if_eq c_nl r4 with
            | None => Ret (LErr s r4)
            | Some r5 => parse_details r5
            end
          else match s with
          | [] => Ret (LErr (lit "<>") r3)
          | _ =>
              if existsb is_whitespace s
              then Ret (LErr (substring_from r r3) r3)
              else match validate_link s with
              | inl (mkUrl c (Some sch)) =>
                  Ret (LOk (Link (mkUrl c (Some sch)) None None) r3)
              | _ => Ret (LErr (substring_from r r3) r3)
              end
          end
      end
  end.

(** lexer.rs:911-919: collect the lines of a table.  Each round consumes the
    '|', so the length of the cursor bounds the rounds. *)
Fixpoint table_lines (n : nat) (r : cursor) : option (list str * cursor) :=
  match n with
  | O => None
  | S n' =>
      match next_if_eq c_pipe r with
      | None => Some ([], r)
      | Some r1 =>
          let (l, r2) := consume_while not_nl r1 in
          match table_lines n' (next r2) with
          | Some (ls, r3) => Some (l :: ls, r3)
          | None => None
          end
      end
  end.

(** lexer.rs:941-943 / 947-949 / 961-964: the trimmed non-empty cells of a line. *)
Definition cells (l : str) : list str :=
  map trim (filter (fun x => negb (is_empty x)) (split [c_pipe] l)).

(** lexer.rs:950-955. *)
Definition cell_alignment (x : str) : alignment :=
  match starts_with [c_colon] x, ends_with [c_colon] x with
  | true, false => ALeft
  | true, true => ACenter
  | false, true => ARight
  | _, _ => ALeft
  end.

(** lexer.rs:966-970: lex the cells of a row, keeping the usable tokens. *)
Definition lex_row (l : str) : res (list (list token)) :=
  mapM (fun e => bind (LEX e []) (fun toks => Ret (filter is_usable_in_table toks)))
       (cells l).

(** lexer.rs:909-979 [lex_pipes]. *)
Definition lex_pipes (r : cursor) : res lres :=
  match table_lines (S (length r)) r with
  | None => Hang
  | Some (lines, r1) =>
      match lines with
      | head :: align :: body =>
          if length lines <? 3 then Ret (LErr (substring_from r r1) r1)
          else if negb (forallb (fun l => count_matches [c_pipe] l
                                          =? count_matches [c_pipe] head) lines)
          then Ret (LErr (substring_from r r1) r1)
          else
            let headings := cells head in
            let alignments := map cell_alignment (cells align) in
            bind (mapM (fun l => bind (lex_row l)
                                   (fun cs => Ret (combine alignments cs))) body)
                 (fun rows => Ret (LOk (Table (combine alignments headings) rows) r1))
      | _ => Ret (LErr (substring_from r r1) r1)
      end
  end.

(** lexer.rs:48-201 [next_token]: dispatch on the char under the cursor, and
    turn [Err(e)] into [Token::Plaintext(e.content)].  [None]: end of input. *)
Definition dispatch (ignore : list char) (last : option token) (c : char) (r : cursor)
  : res lres :=
  if ceq c c_hash && negb (mem_char c_hash ignore) then lex_heading r
  else if ceq c c_nl then Ret (lex_newlines r)
  else if ceq c c_sp || ceq c c_tab then lex_tabs_spaces last r
  else if is_digit c then lex_numbers r
  else if ceq c c_star || ceq c c_under then Ret (lex_asterisk_underscore r)
  else if ceq c c_minus || ceq c c_plus then lex_plus_minus r
  else if ceq c c_gt then Ret (lex_blockquotes r)
  else if ceq c c_tilde then Ret (lex_tilde r)
  else if ceq c c_tick then Ret (lex_backticks r)
  else if ceq c c_lbrk then lex_links r
  else if ceq c c_bang then lex_images r
  else if ceq c c_lt then lex_side_carrot r
  else if ceq c c_pipe then lex_pipes r
  else if ceq c c_bslash then Ret (lex_escaped_character r)
  else Ret (LOk (Plaintext [c]) (next r)).

Definition next_token (ignore : list char) (last : option token) (r : cursor)
  : res (option (token * cursor)) :=
  match r with
  | [] => Ret None
  | c :: _ =>
      bind (dispatch ignore last c r) (fun l =>
        match l with
        | LOk t r' => Ret (Some (t, r'))
        | LErr e r' => Ret (Some (Plaintext e, r'))
        end)
  end.

(** lib.rs:39-50 [Parser::lex]: the token loop.  Only [tokens.last()] of the
    tokens produced so far is ever read by [next_token].  Every token consumes
    at least one char (proved in LexerFacts.v), so [n = S (length source)]
    rounds suffice; running out gives [Hang]. *)
Fixpoint lex_loop (n : nat) (ignore : list char) (last : option token) (r : cursor)
  : res (list token) :=
  match n with
  | O => Hang
  | S n' =>
      bind (next_token ignore last r) (fun o =>
        match o with
        | None => Ret []
        | Some (t, r') =>
            bind (lex_loop n' ignore (Some t) r') (fun ts => Ret (t :: ts))
        end)
  end.

End Lexer.
