(** * Token: model of /repo/gfm/src/token.rs. *)
From Coq Require Import Ascii String.
From Verif Require Import Strings.
Open Scope list_scope.

(** token.rs:177-182 [enum Alignment]. *)
Inductive alignment := ALeft | ARight | ACenter.

(** token.rs:184-192 [Display for Alignment]. *)
Definition fmt_alignment (a : alignment) : str :=
  match a with
  | ALeft => lit "left"
  | ARight => lit "right"
  | ACenter => lit "center"
  end.

(** token.rs:171-174 [enum TaskBox]. *)
Inductive taskbox := Checked | Unchecked.

(** token.rs:135-140 [enum Scheme]. *)
Inductive scheme :=
| SHttp (s : str) | SEmail (s : str) | SIrc (s : str) | SOther (s : str).

(** token.rs:142-151 [Display for Scheme]. *)
Definition fmt_scheme (s : scheme) : str :=
  match s with SHttp x => x | SEmail x => x | SIrc x => x | SOther x => x end.

(** token.rs:96-99 [struct ValidURL]. *)
Record valid_url := mkUrl { url_content : str; url_scheme : option scheme }.

(** token.rs:13-66 [enum Token].  [Header]'s level is a [usize], [BlockQuote]'s
    a [u8] (kept below 256 by the lexer, lexer.rs:484). *)
Inductive token :=
| Plaintext (t : str)
| Header (level : nat) (t : str) (lbl : option str)
| UnorderedListEntry (toks : list token)
| OrderedListEntry (t : str)
| Italic (t : str)
| Bold (t : str)
| BoldItalic (t : str)
| LineBreak
| Newline
| HorizontalRule
| Tab
| DoubleTab
| Strikethrough (t : str)
| Code (t : str)
| CodeBlock (t lang : str)
| BlockQuote (level : nat) (t : str)
| Image (l : str) (t : option str)
| Link (l : valid_url) (t ht : option str)
| Detail (summary : str) (toks : list token)
| Table (headings : list (alignment * str))
        (rows : list (list (alignment * list token)))
| TaskListItem (c : taskbox) (t : str)
| Footnote (ref_id text : str).

(** token.rs:82-92 [Token::is_usable_in_table]. *)
Definition is_usable_in_table (t : token) : bool :=
  match t with
  | Code _ | Link _ _ _ | Bold _ | Italic _ | BoldItalic _ | Plaintext _ => true
  | _ => false
  end.

(** token.rs:153-167 [percent_encode]: twelve successive replacements. *)
Definition percent_encode (s0 : str) : str :=
  let s1 := replace_char 37%N (lit "%25") s0 in
  let s2 := replace_char c_hash (lit "%23") s1 in
  let s3 := replace_char c_lbrk (lit "%5B") s2 in
  let s4 := replace_char c_rbrk (lit "%5D") s3 in
  let s5 := replace_char c_bang (lit "%21") s4 in
  let s6 := replace_char 36%N (lit "%24") s5 in
  let s7 := replace_char c_apos (lit "%27") s6 in
  let s8 := replace_char c_lpar (lit "%28") s7 in
  let s9 := replace_char c_rpar (lit "%29") s8 in
  let s10 := replace_char c_star (lit "%2A") s9 in
  let s11 := replace_char c_sp (lit "%20") s10 in
  replace_char c_bslash (lit "%5C") s11.

(** token.rs:101-110 [ValidURL::fmt_unsafe]. *)
Definition fmt_unsafe (u : valid_url) : str :=
  let amp := replace_char c_amp (lit "&amp;") (url_content u) in
  match url_scheme u with
  | None => lit "http:" ++ amp
  | Some (SEmail _) => amp
  | Some s => fmt_scheme s ++ [c_colon] ++ amp
  end.

(** token.rs:112-132 [Display for ValidURL]. *)
Definition fmt_url (u : valid_url) : str :=
  let body := replace_char c_amp (lit "&amp;") (percent_encode (url_content u)) in
  match url_scheme u with
  | None => lit "http:" ++ body
  | Some s => fmt_scheme s ++ [c_colon] ++ body
  end.

(** token.rs:3-10 [COMMONMARK_SCHEME_ASCII]. *)
Definition commonmark_scheme_ascii : list char :=
  lit "ABCDEFGHIJKLMNOPQRSTUVWXYZabcdefghijklmnopqrstuvwxyz1234567890+.-".

(** token.rs:201 [source.split_at(source.find(':').unwrap_or(0))]. *)
Definition split_scheme (source : str) : str * str :=
  match split_once c_colon source with
  | Some (a, b) => (a, c_colon :: b)
  | None => ([], source)
  end.

(** token.rs:215 [source.split(":").collect()], [parts[0]] ([split] never
    returns an empty list). *)
Definition first_part (source : str) : str := hd [] (split [c_colon] source).

(** token.rs:242 [source.split(":").last().unwrap()]. *)
Definition last_part (source : str) : str := last (split [c_colon] source) [].

(** token.rs:214-232 [source_scheme]. *)
Definition source_scheme (source : str) : option scheme :=
  let p0 := first_part source in
  if contains_char c_colon source
     && forallb (fun c => mem_char c commonmark_scheme_ascii) p0
     && (2 <=? length p0) && (length p0 <=? 32)
  then if str_eqb p0 (lit "http") then Some (SHttp p0)
       else if str_eqb p0 (lit "mailto") then Some (SEmail p0)
       else if str_eqb p0 (lit "irc") then Some (SIrc p0)
       else Some (SOther p0)
  else None.

(** token.rs:258-289: the four identical arms
    [source.strip_prefix(s).unwrap_or("").strip_prefix(":").unwrap_or("")]. *)
Definition strip_scheme (s source : str) : str :=
  or_empty (strip_prefix [c_colon] (or_empty (strip_prefix s source))).

(** token.rs:194-295 [validate_link]; [inr] is [Err(SanitizationError)] whose
    [content] is always [source].  The [unwrap] at token.rs:242 is on the last
    element of a non-empty list. *)
Definition validate_link (source : str) : valid_url + str :=
  if negb (is_ascii source) || existsb is_whitespace source then inr source
  else
    let (sch, path) := split_scheme source in
    if str_eqb (to_lowercase sch) (lit "javascript") || negb (is_ascii sch)
    then inr source
    else if str_eqb (to_lowercase sch) (lit "data")
            && negb (starts_with (lit ":image/") path)
    then inr source
    else if negb (length sch =? 0) && ((length sch <? 2) || (32 <? length sch))
    then inr source
    else
      let ss := source_scheme source in
      if contains_char c_at source && (count_matches [c_at] source =? 1)
         && negb (contains_char c_bslash source)
      then match ss with
           | Some s => inl (mkUrl (last_part source) (Some s))
           | None => inl (mkUrl source (Some (SEmail (lit "mailto"))))
           end
      else if contains_char c_at source && (count_matches [c_at] source =? 1)
              && contains_char c_bslash source
      then inr source
      else match ss with
           | Some (SHttp s) => inl (mkUrl (strip_scheme s source) (Some (SHttp s)))
           | Some (SEmail s) => inl (mkUrl (strip_scheme s source) (Some (SEmail s)))
           | Some (SIrc s) => inl (mkUrl (strip_scheme s source) (Some (SIrc s)))
           | Some (SOther s) => inl (mkUrl (strip_scheme s source) (Some (SOther s)))
           | None => inl (mkUrl source None)
           end.
