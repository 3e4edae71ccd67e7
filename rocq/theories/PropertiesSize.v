(** * Properties: how large the output can get (C38) how much is done for it (C86) and how deep calls nest (C87).

    [length] counts characters; [encode] (Utf8.v) is the UTF-8 encoding, so
    [length (encode s)] is the number of bytes of a Rust string. *)
From Coq Require Import Ascii String.
From Verif Require Import Strings StringsFacts Token Iter Lexer Parser Utf8 BlockFacts SizeLex SizeFacts Work WorkFacts Depth.
Open Scope list_scope.

(** ** C38: the output is bounded by a polynomial in the size of the document *)
Theorem C38_output_bounded : forall s h, renders s h ->
  (N.of_nat (length h) <= 2 ^ 35 * (1 + N.of_nat (length s)) ^ 4)%N.
Proof. exact renders_size. Qed.
Print Assumptions C38_output_bounded.

(** The same in bytes, which is what is written to the disk. *)
Theorem C38_bytes_bounded : forall s h, renders s h ->
  (N.of_nat (length (encode h)) <= 2 ^ 37 * (1 + N.of_nat (length (encode s))) ^ 4)%N.
Proof. exact renders_bytes. Qed.
Print Assumptions C38_bytes_bounded.

(** No linear bound holds (see C61 for the reason). *)
Theorem C38_not_linear : forall k, exists s h, renders s h /\ k * length s < length h.
Proof. exact not_linear. Qed.
Print Assumptions C38_not_linear.
Theorem C38_at_least_quadratic : forall n, 1 <= n ->
  exists s h, renders s h /\ length s = 11 + 6 * n /\ n * n <= length h.
Proof. exact quadratic. Qed.
Print Assumptions C38_at_least_quadratic.

Example C38_ex : exists h,
  renders (lit "|`a` b|" ++ c_nl :: lit "|---|" ++ c_nl :: lit "|`c``d``e` *f*|" ++ [c_nl]) h
  /\ length h = 334.
Proof. eexists. split; [exists 12; vm_compute; reflexivity | vm_compute; reflexivity]. Qed.

(** ** C86: rendering calls itself on texts of at most quadratic length in total

    [snd (render_w f s)] counts, over all calls made for [s], one and the characters of the text for
    a call of [lex], one and the number of tokens for a call of [parse]. *)
Theorem C86_counts_the_renderer : forall f s, fst (render_w f s) = render f s.
Proof. exact render_w_erase. Qed.
Print Assumptions C86_counts_the_renderer.

(** For every depth up to which calls are followed, so also if the result is a panic or none is reached. *)
Theorem C86_work_bounded : forall f s,
  (N.of_nat (snd (render_w f s)) <= 2 + 2 * N.of_nat (length s)
    + ((if contains_char c_gt s then 6420 else 100) + (if contains_char c_pipe s then 4 else 0))
      * (N.of_nat (length s) * N.of_nat (length s)))%N.
Proof. exact work_bound. Qed.
Print Assumptions C86_work_bounded.

Theorem C86_work_at_least : forall f s, 1 + length s <= snd (render_w (S f) s).
Proof. exact work_least. Qed.
Print Assumptions C86_work_at_least.

(** And no better: a list item in a list item in a list item. *)
Theorem C86_work_quadratic : forall n f, n < f ->
  snd (render_w f (flat_map (fun _ => lit "- ") (seq 0 n) ++ lit "a")) = (n + 1) * (n + 4).
Proof. exact nest_flat_work. Qed.
Print Assumptions C86_work_quadratic.
Example C86_ex : exists h, render_w 9 (lit "- - - a") = (Ret h, 28).
Proof. eexists. vm_compute. reflexivity. Qed.
Example C86_quote_ex : exists h, render_w 9 (lit "> a") = (Ret h, 10).
Proof. eexists. vm_compute. reflexivity. Qed.

(** ** C87: calls of the renderer nest at most so deep, whatever the document

    [render k s] is [Hang] if more than [k] levels are needed.  The full statement,
    [exists k, forall s h, renders s h -> render k s = Ret h], is false ... *)
Theorem C87_depth_refuted : ~ exists k, forall s h, renders s h -> render k s = Ret h.
Proof. intros [k H]. destruct (deep k) as (s & h & _ & R & E). rewrite (H s h R) in E. discriminate E. Qed.
Print Assumptions C87_depth_refuted.
(** ... for list items in each other, two characters for each level. *)
Theorem C87_depth_needed : forall k, exists s h, length s = 2 * k + 1 /\ renders s h /\ render k s = Hang.
Proof. exact deep. Qed.
Print Assumptions C87_depth_needed.
(** The depth is at most linear, and one level is enough for documents without the characters
    that start something which is rendered again. *)
Theorem C87_depth_linear_partial : forall s h, renders s h -> render (310 + 10 * length s) s = Ret h.
Proof. exact depth_linear. Qed.
Print Assumptions C87_depth_linear_partial.
Theorem C87_depth_flat_partial : forall s, (forall c, In c s -> ~ In c (lit "#>-+*_<|")) -> exists h, render 1 s = Ret h.
Proof. exact flat_shallow. Qed.
Print Assumptions C87_depth_flat_partial.
Example C87_flat_ex : let s := lit "1. `a` [b](c) ![d](e) ~~f~~ {g}" in
  forallb (fun c => negb (mem_char c (lit "#>-+*_<|"))) s = true /\ exists h, render 1 s = Ret h.
Proof. split; [vm_compute; reflexivity|]. eexists. vm_compute. reflexivity. Qed.
