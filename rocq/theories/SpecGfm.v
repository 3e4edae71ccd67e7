(** * SpecGfm: vocabulary of the statements about further constructs of GitHub's Markdown.

    Specification vocabulary, independent of the renderer: not code of /repo. *)
From Coq Require Import Ascii String.
From Verif Require Import Strings StringsFacts Markdown SpecText.
Open Scope list_scope.

(** The sign of equality, with which lines are underlined. *)
Definition c_equals : char := 61%N.
(** Labels of links: what stands between the brackets. *)
Definition label (t : str) : Prop := t <> [] /\ ~ In c_lbrk t /\ ~ In c_rbrk t /\ ~ In c_nl t /\ starts_in [c_caret] t = false.
Definition bracketed (t : str) : str := lit "[" ++ t ++ lit "]".
(** A text of ordinary characters on one line, some of them visible. *)
Definition words_on_line (t : str) : Prop := ordinary t = true /\ has_ink t = true /\ ~ In c_nl t.
(** A character reference. *)
Definition reference (name : str) : str := [c_amp] ++ name ++ lit ";".
