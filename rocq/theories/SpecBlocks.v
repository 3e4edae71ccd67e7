(** * SpecBlocks: vocabulary of the statements about lists, quotes, tables,
    collapsible sections and footnotes.

    Specification vocabulary, independent of the renderer: not code of /repo. *)
From Coq Require Import Ascii String.
From Verif Require Import Strings StringsFacts Markdown SpecText.
Open Scope list_scope.

(** Lines joined by line breaks. *)
Fixpoint lines (ls : list str) : str :=
  match ls with
  | [] => []
  | [l] => l
  | l :: ls' => l ++ [c_nl] ++ lines ls'
  end.

(** Number of places at which [p] occurs in [h]. *)
Fixpoint occurrences (p h : str) : nat :=
  match h with
  | [] => 0
  | _ :: h' => (if starts_with p h then 1 else 0) + occurrences p h'
  end.

(** [k] line breaks, then paragraphs. *)
Definition follow (k : nat) (qs : list str) : str :=
  crep k c_nl ++ match qs with [] => [] | q :: qs' => q ++ after qs' end.

(** ** Ordered lists: digit and text of the items. *)
Definition ol_line (i : char * str) : str := fst i :: lit ". " ++ snd i.
Definition ol_items (is : list (char * str)) : Prop :=
  is <> [] /\ Forall (fun i => is_digit (fst i) = true /\ ~ In c_nl (snd i)) is.
Definition li_tag (h : str) : str := lit "<li>" ++ [c_nl] ++ h ++ lit "</li>" ++ [c_nl].
Definition ol_tag (hs : list str) : str :=
  lit "<ol>" ++ [c_nl] ++ concat (map li_tag hs) ++ lit "</ol>" ++ [c_nl].

(** ** Bullet lists: mark, text and the html of the text of the items. *)
Definition bullets : list char := [c_minus; c_plus; c_star].
Definition box_marks : list str := [lit "[ ] "; lit "[x] "; lit "[X] "].
Definition item_text (t h : str) : Prop :=
  inline t h /\ has_ink t = true /\ ~ In c_nl t /\ starts_in [c_sp] t = false /\
  (forall x, In x box_marks -> starts_with x t = false) /\ ~ infix (lit "<pre>") h.
Definition ul_line (i : char * str * str) : str := fst (fst i) :: [c_sp] ++ snd (fst i).
Definition ul_items (is : list (char * str * str)) : Prop :=
  is <> [] /\ Forall (fun i => In (fst (fst i)) bullets /\ item_text (snd (fst i)) (snd i)) is.
Definition ul_tag (hs : list str) : str :=
  lit "<ul>" ++ [c_nl] ++ concat (map li_tag hs) ++ lit "</ul>" ++ [c_nl].

(** ** Task lists: mark, box, text. *)
Inductive box := Open | LowerX | UpperX.
Definition box_src (b : box) : str := match b with Open => lit " [ ] " | LowerX => lit " [x] " | UpperX => lit " [X] " end.
Definition box_checked (b : box) : bool := match b with Open => false | _ => true end.
Definition task_line (i : char * box * str) : str := let '(m, b, t) := i in m :: box_src b ++ t.
Definition task_items (is : list (char * box * str)) : Prop :=
  is <> [] /\ Forall (fun i => In (fst (fst i)) [c_minus; c_plus] /\ ~ In c_nl (snd i)) is.
Definition task_item (i : char * box * str) : str :=
  let '(_, b, t) := i in
  lit "<li class=""task-list-item""><input type=""checkbox"" class=""task-list-item-checkbox"""
  ++ (if box_checked b then lit " checked=""""" else []) ++ lit ">" ++ escaped t ++ lit "</li>".
Definition task_tag (is : list (char * box * str)) : str :=
  lit "<ul class=""contains-task-list"">" ++ concat (map task_item is) ++ lit "</ul>" ++ [c_nl].

(** ** Quotes: level and text of the lines. *)
Definition quote_line (i : nat * str) : str := crep (fst i) c_gt ++ [c_sp] ++ snd i.
Definition quotes (is : list (nat * str)) : Prop :=
  is <> [] /\ Forall (fun i => 1 <= fst i < 256 /\ ordinary (snd i) = true /\ has_ink (snd i) = true /\
                               ~ In c_nl (snd i) /\ starts_in [c_sp] (snd i) = false) is.
Definition bq_open : str := lit "<blockquote>".
Definition bq_close : str := lit "</blockquote>".
(** The text [h] stands inside exactly [n] quotes in [out]. *)
Definition inside (n : nat) (h out : str) : Prop :=
  exists pre post, out = pre ++ h ++ post /\
    occurrences bq_open pre = occurrences bq_close pre + n /\
    occurrences bq_close post = occurrences bq_open post + n.

(** ** Tables *)
Definition table_src (heads delims : list str) (rows : list (list str)) : str :=
  concat (map (fun row => row_src row ++ [c_nl]) (heads :: delims :: rows)).
(** A table of the right shape. *)
Definition table_ok (heads delims : list str) (rows : list (list str)) : Prop :=
  heads <> [] /\ rows <> [] /\ length delims = length heads /\ Forall (fun row => length row = length heads) rows /\
  Forall bar_free heads /\ Forall bar_free delims /\ Forall (Forall bar_free) rows.
(** Ordinary cells. *)
Definition ordinary_cell (x : str) : Prop := ordinary (trim x) = true /\ ~ In c_hash x.
(** Alignment asked for by a delimiter cell. *)
Definition align_of (x : str) : align :=
  if ends_with [c_colon] (trim x) then (if starts_with [c_colon] (trim x) then AlCenter else AlRight) else AlLeft.
(** A block of lines that start with a bar and are no table. *)
Definition bar_block (ls : list str) : str := lines (map bar_line ls).

(** Cells that consist of autolinks. *)
Definition angle (u : str) : str := lit "<" ++ u ++ lit ">".
Definition auto_dest (u : str) : Prop := (exists href t, dest u href t) /\ ~ In c_gt u /\ ~ In c_pipe u.

(** ** Collapsible sections *)
Definition details_src (summary body : str) : str :=
  lit "<details>" ++ [c_nl] ++ lit "<summary>" ++ summary ++ lit "</summary>" ++ [c_nl] ++ body ++ lit "</details>".

(** ** Footnotes: paragraphs, and definitions followed by line breaks. *)
Inductive chunk := CPara (t h : str) | CNote (i t : str) (k : nat).
Definition chunk_src (x : chunk) : str :=
  match x with
  | CPara t _ => t ++ blank_line
  | CNote i t k => lit "[^" ++ i ++ lit "]:" ++ t ++ [c_nl] ++ crep k c_nl
  end.
Definition chunk_ok (x : chunk) : Prop :=
  match x with
  | CPara t h => para t h /\ starts_in [c_sp] t = false
  | CNote i t _ => ~ In c_rbrk i /\ existsb is_whitespace i = false /\ ~ In c_nl t
  end.
Definition chunk_html (x : chunk) : str := match x with CPara _ h => p_tag h | CNote _ _ _ => [] end.
Definition chunk_notes (x : chunk) : list (str * str) := match x with CPara _ _ => [] | CNote i t _ => [(i, trim t)] end.

(** References to notes in ordinary text: pairs of the text before a reference and
    the name of the note, and the text at the end. *)
Definition refs_text (xs : list (str * str)) (b : str) : str :=
  concat (map (fun x => fst x ++ lit "[^" ++ snd x ++ lit "]") xs) ++ b.
Definition note_name (i : str) : Prop := ~ In c_rbrk i /\ ~ infix (lit "[^") i.
Definition ref_ok (x : str * str) : Prop :=
  ordinary (fst x) = true /\ starts_in [c_bang] (rev (fst x)) = false /\
  starts_in [c_nl; c_colon; c_lpar] (fst x) = false /\ note_name (snd x).
(** Shown with the numbers [num 1], [num 2], ... *)
Fixpoint refs_html (num : nat -> nat) (k : nat) (xs : list (str * str)) : str :=
  match xs with [] => [] | (a, i) :: xs' => txt a ++ note_tag (num k) i ++ refs_html num (S k) xs' end.
