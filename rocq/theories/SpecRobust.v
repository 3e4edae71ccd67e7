(** * SpecRobust: custom ids in the right places, and details blocks that are closed.

    Used in the statements of C01 and C02; independent of the lexer. *)
From Coq Require Import Ascii String.
From Verif Require Import Strings.
Open Scope list_scope.

(** ** Custom ids *)

(** What follows a heading mark up to the end of the line mentions no custom id, or
    ends in it: [text{#id}].  (A heading mark is a '#' before a space or tab; more
    '#' may precede it.) *)
Definition ids_placed (s : str) : Prop := forall a sep t b,
  sep = c_sp \/ sep = c_tab -> ~ In c_nl t -> (b = [] \/ exists c, b = c_nl :: c) ->
  s = a ++ c_hash :: sep :: t ++ b ->
  ~ infix (lit "{#") t \/ ~ In c_rbrace t \/
  exists u v k, t = u ++ lit "{#" ++ v ++ crep k c_rbrace /\
    ~ In c_lbrace u /\ ~ In c_rbrace u /\ ~ In c_rbrace v.

(** ** Details blocks *)

(** The number of places at which [w] occurs in [s]. *)
Fixpoint occurs (w s : str) : nat :=
  match s with
  | [] => 0
  | _ :: s' => (if starts_with w s then 1 else 0) + occurs w s'
  end.

(** Behind every opening tag that another one follows, there are not as many
    opening as closing tags, and the summary of the block (if there is one) has no
    tags in it. *)
Definition details_closed (s : str) : Prop := forall a b,
  s = a ++ lit "<details>" ++ b -> infix (lit "<details>") b ->
  occurs (lit "<details>") b <> occurs (lit "</details>") b /\
  forall line c, ~ In c_nl line ->
    b = c_nl :: lit "<summary>" ++ line ++ c \/ b = c_cr :: c_nl :: lit "<summary>" ++ line ++ c ->
    ~ infix (lit "<details>") line /\ ~ infix (lit "</details>") line.

(** Texts in which every block is closed and the blocks are nested properly:
    texts without '<', closed blocks, and sequences of them. *)
Inductive nested : str -> Prop :=
| n_text x : ~ In c_lt x -> nested x
| n_block summary x : ~ In c_lt summary -> ~ In c_nl summary -> nested x ->
    nested (lit "<details>" ++ [c_nl] ++ lit "<summary>" ++ summary ++ lit "</summary>"
            ++ [c_nl] ++ x ++ lit "</details>")
| n_seq x y : nested x -> nested y -> nested (x ++ y).

(** A block in a block, for the examples. *)
Definition two_blocks : str :=
  lit "a" ++ (lit "<details>" ++ [c_nl] ++ lit "<summary>" ++ lit "s" ++ lit "</summary>" ++ [c_nl]
    ++ (lit "x" ++ lit "<details>" ++ [c_nl] ++ lit "<summary>" ++ lit "t" ++ lit "</summary>" ++ [c_nl]
        ++ lit "# b" ++ lit "</details>") ++ lit "</details>") ++ lit "[c](d)".
