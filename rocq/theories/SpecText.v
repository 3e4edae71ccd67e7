(** * SpecText: vocabulary of the statements about ordinary text.

    Specification vocabulary, independent of the renderer: not code of /repo. *)
From Coq Require Import Ascii String.
From Verif Require Import Strings StringsFacts Markdown.
Open Scope list_scope.

(** Characters with a meaning in Markdown (wherever they stand). *)
Definition markup_chars : list char := lit "*_-+>~`[<|\" ++ [c_tab].

(** Ordinary text: no such character, no two spaces or line breaks in a row, no
    digit followed by a dot and a space, no exclamation mark followed by '[', and
    every hash is followed by a character other than a blank or a hash. *)
Definition hash_ok (r : str) : bool :=
  match r with [] => false | x :: _ => negb (mem_char x [c_hash; c_sp; c_tab; c_nl]) end.
Definition ordinary_char (c : char) (r : str) : bool :=
  negb (mem_char c markup_chars)
  && negb (ceq c c_sp && starts_in [c_sp] r)
  && negb (ceq c c_nl && starts_in [c_nl] r)
  && negb (is_digit c && starts_with (lit ". ") r)
  && negb (ceq c c_bang && starts_in [c_lbrk] r)
  && (negb (ceq c c_hash) || hash_ok r).
Fixpoint ordinary (s : str) : bool :=
  match s with
  | [] => true
  | c :: r => ordinary_char c r && ordinary r
  end.

(** The characters that are not white space, in order. *)
Definition ink (s : str) : str := filter visible s.
Definition has_ink (s : str) : bool := existsb visible s.

(** A paragraph of ordinary text: something visible in it, and no line breaks at
    its ends. *)
Definition paragraph (s : str) : bool :=
  ordinary s && has_ink s && negb (starts_in [c_nl] s) && negb (starts_in [c_nl] (rev s)).

(** Escaped ordinary text, as the renderer shows it (without the spaces, see C09). *)
Definition txt (s : str) : str := escaped (ink s).
Definition p_tag (h : str) : str := lit "<p>" ++ h ++ lit "</p>" ++ [c_nl].
Definition p_tags (ps : list str) : str := concat (map (fun p => p_tag (txt p)) ps).

(** Paragraphs before and after something, separated by blank lines. *)
Definition blank_line : str := [c_nl; c_nl].
Definition before (ps : list str) : str := concat (map (fun p => p ++ blank_line) ps).
Definition after (qs : list str) : str := concat (map (fun q => blank_line ++ q) qs).
(** ... by any number of blank lines. *)
Definition gaps (qs : list (nat * str)) : str := concat (map (fun q => crep (2 + fst q) c_nl ++ snd q) qs).
Definition paragraphs (ps : list str) : Prop := Forall (fun p => paragraph p = true) ps.

(** An ordinary text that can stand in front of a construct in a paragraph (it
    does not start with a line break or end in an exclamation mark), and one that
    can stand behind it. *)
Definition lead (a : str) : bool :=
  ordinary a && negb (starts_in [c_nl] a) && negb (starts_in [c_bang] (rev a)).
Definition trail (b : str) : bool := ordinary b && negb (starts_in [c_nl] (rev b)).

(** [shown_in_line no s h]: wherever [s] stands in a paragraph of ordinary text,
    between ordinary paragraphs, it contributes exactly [h] (unless one of the
    characters [no] follows). *)
Definition shown_in_line (renders : str -> str -> Prop) (no : list char) (s h : str) : Prop :=
  forall ps a b qs, paragraphs ps -> paragraphs qs -> lead a = true -> trail b = true ->
    starts_in no b = false ->
    renders (before ps ++ (a ++ s ++ b) ++ after qs)
            (p_tags ps ++ p_tag (txt a ++ h ++ txt b) ++ p_tags qs).

(** [shown_as_block s h]: wherever [s] stands between ordinary paragraphs, it
    contributes exactly [h]. *)
Definition shown_as_block (renders : str -> str -> Prop) (s h : str) : Prop :=
  forall ps qs, paragraphs ps -> paragraphs qs ->
    renders (before ps ++ s ++ after qs) (with_nl (p_tags ps ++ h ++ p_tags qs)).

(** [shown_as_line s h]: also when there are no blank lines around [s]. *)
Definition shown_as_line (renders : str -> str -> Prop) (s h : str) : Prop :=
  forall ps p q qs, paragraphs (p :: q :: ps ++ qs) ->
    renders (before ps ++ p ++ [c_nl] ++ s ++ [c_nl] ++ q ++ after qs)
            (p_tags ps ++ p_tag (txt p) ++ h ++ p_tag (txt q) ++ p_tags qs).

(** ** Headings *)

(** What may follow the text of a heading on its line: blanks, or a closing run of
    hashes after a space. *)
Inductive heading_end : str -> Prop :=
| he_blanks b : blanks b -> heading_end b
| he_hashes b k b' : blanks b -> blanks b' -> 1 <= k -> heading_end (b ++ [c_sp] ++ crep k c_hash ++ b').
Definition heading_src (n : nat) (t e : str) : str := crep n c_hash ++ [c_sp] ++ t ++ e.
(** A line of ordinary text that ends in a visible character. *)
Definition heading_ordinary (t : str) : Prop :=
  ordinary t = true /\ ~ In c_nl t /\ ~ In c_hash t /\ ends_visible t.

(** ** Inline constructs: [span no s h]: [s] is a construct shown as [h], unless one
    of [no] follows. *)
Definition unmarked (t : str) : Prop := t <> [] /\ ~ In c_star t /\ ~ In c_under t.
Inductive span : list char -> str -> str -> Prop :=
| sp_em d t : In d star_under -> unmarked t -> starts_in [c_tab; c_sp; c_nl] t = false ->
    span [] ([d] ++ t ++ [d]) (em_tag t)
| sp_strong d t : In d star_under -> unmarked t -> starts_in [c_tab; c_nl] t = false ->
    span [] ([d; d] ++ t ++ [d; d]) (strong_tag t)
| sp_both d t : In d star_under -> unmarked t -> starts_in [c_tab; c_nl] t = false ->
    span [] ([d; d; d] ++ t ++ [d; d; d]) (both_tag t)
| sp_strike t : t <> [] -> ~ In c_tilde t -> span [] (lit "~~" ++ t ++ lit "~~") (strike_tag t)
| sp_link t u href : ~ In c_rbrk t -> ~ In c_rpar u -> href_of u href ->
    span [] (lit "[" ++ t ++ lit "](" ++ u ++ lit ")") (a_tag href (escaped t))
| sp_auto u href t : dest u href t -> ~ In c_gt u -> span [] (lit "<" ++ u ++ lit ">") (a_tag href t)
| sp_angle t : ~ In c_gt t -> t <> lit "details" ->
    existsb is_whitespace t = true \/ (~ In c_colon t /\ ~ In c_at t) -> literal (lit "<" ++ t ++ lit ">") ->
    span [] (lit "<" ++ t ++ lit ">") (escaped (lit "<" ++ t ++ lit ">"))
| sp_brackets t : ~ In c_rbrk t -> starts_in [c_caret] t = false -> literal (lit "[" ++ t ++ lit "]") ->
    span [c_lpar] (lit "[" ++ t ++ lit "]") (escaped (lit "[" ++ t ++ lit "]"))
| sp_tildes n : 1 <= n -> n <> 2 -> span [] (crep n c_tilde) (escaped (crep n c_tilde))
| sp_escape c : is_whitespace c = false -> span (if ceq c c_hash then [c_hash] else []) [c_bslash; c] (escaped [c])
| sp_noteref i : ~ In c_rbrk i -> ~ infix (lit "[^") i -> span [c_colon; c_lpar] (lit "[^" ++ i ++ lit "]") (noteref_tag i).

(** ** Text with any number of inline constructs: [inline t h]: shown as [h]. *)
Inductive inline : str -> str -> Prop :=
| in_end b : trail b = true -> inline b (txt b)
| in_span no a s t h ht : ordinary a = true -> starts_in [c_bang] (rev a) = false -> span no s h ->
    starts_in (no ++ lit "*_~") t = false -> inline t ht -> inline (a ++ s ++ t) (txt a ++ h ++ ht).
(** A paragraph of such text. *)
Definition para (t h : str) : Prop := inline t h /\ has_ink t = true /\ starts_in [c_nl] t = false.
Definition paras (ps : list (str * str)) : Prop := Forall (fun p => para (fst p) (snd p)) ps.
