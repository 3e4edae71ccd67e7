(** * SpecSyntax: vocabulary of the statements about the syntax of GitHub's Markdown.

    Specification vocabulary, independent of the renderer: not code of /repo. *)
From Coq Require Import Ascii String.
From Verif Require Import Strings StringsFacts Markdown SpecText SpecBlocks.
Open Scope list_scope.

(** Two paragraphs of one text. *)
Definition broken (x y : str) : str := x ++ [c_nl; c_nl] ++ y.

(** Rows of a table without bars around them: what stands before the first bar, how it is shown, and what stands behind
    the bar.  The delimiter row begins with two hyphens. *)
Definition bare_row (x : str * str * str) : str := fst (fst x) ++ c_pipe :: snd x ++ [c_nl].
Definition bare_start (a h : str) : Prop :=
  (ordinary a = true /\ has_ink a = true /\ starts_in [c_nl] a = false /\ starts_in [c_nl] (rev a) = false /\ h = txt a) \/
  (a = lit "--" /\ h = a).
Definition bare_ok (x : str * str * str) : Prop :=
  bare_start (fst (fst x)) (snd (fst x)) /\ ~ In c_nl (snd x) /\ ~ In c_lbrk (snd x).
Definition bare_html (x : str * str * str) : str := snd (fst x) ++ escaped (c_pipe :: snd x).

(** The cells of the rows that are not empty, as they are shown. *)
Definition shown_cells (rows : list (list str)) : list (list str) := map (map (fun x => escaped (trim x))) (map filled rows).
