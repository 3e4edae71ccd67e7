(** * SpecPage: how an HTML page begins.

    Independent of the model. *)
From Coq Require Import Ascii String.
From Verif Require Import Strings.
Open Scope list_scope.

(** The texts a page may begin with. *)
Definition own_beginnings : list str :=
  [[c_nl]; [c_tab]; lit " "; lit "<p>"; lit "<h0"; lit "<h1"; lit "<h2"; lit "<h3"; lit "<h4"; lit "<h5"; lit "<h6"; lit "<h7";
   lit "<h8"; lit "<h9"; lit "<ol>"; lit "<ul>"; lit "<ul "; lit "<details>"; lit "<blockquote>"; lit "<table ";
   lit "<pre>"; lit "<hr "].
Definition begins (h : str) : Prop := exists t r, In t own_beginnings /\ h = t ++ r.

(** What a whole document begins with. *)
Definition document_beginnings : list str :=
  [lit "<!DOCTYPE"; lit "<!doctype"; lit "<html"; lit "<head"; lit "<meta"].
