(** * Properties: robustness of the renderer (C01, C02, C29, C39).

    [renders s h], [crashes s], [runs_forever s] (Parser.v) are the three possible
    outcomes of [Parser::render] on the document [s]. *)
From Coq Require Import Ascii String.
From Verif Require Import Strings StringsFacts Token Iter Lexer Parser LexerFacts LexMono
  SpecRobust DetailsFacts DetailsBody NoPanic Termination Outcome OutputFacts.
Open Scope list_scope.

(** ** C01: rendering never panics *)

(** The full statement, [forall s, ~ crashes s], is false ... *)
Theorem C01_no_panic_refuted : exists s, crashes s.
Proof. exists (lit "# {#a} b"), 1. vm_compute. reflexivity. Qed.
Print Assumptions C01_no_panic_refuted.

(** ... namely for every document that starts with a heading line which mentions
    a custom id in another place than the end of the line, or after another
    opening brace. *)
Theorem C01_misplaced_id_panics : forall n line rest,
  1 <= n <= 6 -> ~ In c_nl line -> (rest = [] \/ exists r, rest = c_nl :: r) ->
  infix (lit "{#") line -> In c_rbrace line ->
  (forall a b, line = a ++ lit "{#" ++ b ++ lit "}" -> In c_lbrace a) ->
  crashes (crep n c_hash ++ c_sp :: line ++ rest).
Proof. intros. apply heading_crashes; unfold misplaced_id; auto. Qed.
Print Assumptions C01_misplaced_id_panics.
Example C01_misplaced_id_panics_ex :
  crashes (crep 2 c_hash ++ c_sp :: lit "Install {#install} now" ++ c_nl :: lit "text").
Proof.
  apply C01_misplaced_id_panics; [lia | | right; eauto | | |].
  - vm_compute. intuition discriminate.
  - exists (lit "Install "), (lit "install} now"). reflexivity.
  - vm_compute. tauto.
  - intros a b E. exfalso. apply (f_equal (ends_with (lit "}"))) in E.
    rewrite !app_assoc, ends_with_app in E. discriminate.
Qed.

(** It is true for every document in which the text behind each heading mark has no
    custom id or ends in it, with no brace before it ([ids_placed], SpecRobust.v).
    Missing: documents with an id in another place that the lexer never takes for a
    heading, e.g. because the line is part of a link. *)
Theorem C01_no_panic_partial : forall s, ids_placed s -> ~ crashes s.
Proof. intros s H. now apply id_safe_never_crashes, ids_placed_safe. Qed.
Print Assumptions C01_no_panic_partial.
Example C01_no_panic_partial_ex :
  let s := lit "## Install {#install}" ++ [c_nl] ++ lit "call {#here} or {x} now" in
  ids_placed s /\ infix (lit "{#here} or") s.
Proof.
  cbv zeta. split; [|apply contains_iff; vm_compute; reflexivity].
  intros a sep t b Hs Nt Hb E.
  (* the only heading mark is the second character *)
  destruct a as [|a0 a]; [destruct Hs as [-> | ->]; discriminate E|].
  injection E as _ E. destruct a as [|a1 a].
  2:{ exfalso. injection E as _ E.
      assert (I : infix (c_hash :: sep :: nil) (lit " Install {#install}" ++ [c_nl] ++ lit "call {#here} or {x} now")).
      { exists a, (t ++ b). exact E. }
      apply contains_iff in I. destruct Hs as [-> | ->]; vm_compute in I; discriminate. }
  injection E as _ E. right. right.
  exists (lit "Install "), (lit "install"), 1.
  assert (t = lit "Install {#install}") as ->.
  { change (lit "Install {#install}" ++ c_nl :: lit "call {#here} or {x} now" = t ++ b) in E.
    apply app_eq_mid in E as [(m & -> & M)|(m & M & ->)].
    - destruct m as [|c m]; [now rewrite app_nil_r|]. exfalso. injection M as <- _. apply Nt.
      apply in_or_app. right. now left.
    - destruct Hb as [Hb|[c Hb]]; [now destruct m|].
      destruct m as [|d m]; [now rewrite app_nil_r in M|]. cbn [app] in Hb. injection Hb as -> _.
      exfalso. assert (I : In c_nl (lit "Install {#install}")) by (rewrite M; apply in_or_app; right; now left).
      revert I. vm_compute. intuition discriminate. }
  repeat split; vm_compute; intuition discriminate.
Qed.

(** In particular for every document without "{#" or without a closing brace. *)
Theorem C01_no_id_partial : forall s,
  ~ infix (lit "{#") s \/ ~ In c_rbrace s -> ~ crashes s.
Proof. intros s H. now apply id_safe_never_crashes, no_custom_id_safe. Qed.
Print Assumptions C01_no_id_partial.
Example C01_no_id_partial_ex : ~ infix (lit "{#") (lit "# a {b} # [x](y) `c` | d").
Proof. rewrite <- contains_iff. vm_compute. discriminate. Qed.

(** ** C02: rendering terminates *)

(** The full statement, [forall s, ~ runs_forever s], is false: *)
Theorem C02_terminates_refuted : exists s, runs_forever s.
Proof.
  exists (unclosed_details (lit "a") [([], [])] []). apply unclosed_details_hangs;
    try (vm_compute; intuition discriminate).
  repeat constructor; vm_compute; intuition discriminate.
Qed.
Print Assumptions C02_terminates_refuted.

(** every document that opens a details block with a summary, has closed blocks
    [(x, y)] in it (opened behind a text [x], with the text [y] in them), at least
    one, and forgets to close the outer one. *)
Theorem C02_unclosed_details_hang : forall summary blocks z,
  ~ In c_nl summary -> ~ In c_cr summary -> blocks <> [] ->
  Forall (fun p => ~ In c_lt (fst p) /\ ~ In c_lt (snd p)) blocks -> ~ In c_lt z ->
  runs_forever (lit "<details>" ++ [c_nl] ++ lit "<summary>" ++ summary ++ lit "</summary>" ++ [c_nl]
                ++ flat_map (fun p => fst p ++ lit "<details>" ++ snd p ++ lit "</details>") blocks ++ z).
Proof. exact unclosed_details_hangs. Qed.
Print Assumptions C02_unclosed_details_hang.
Example C02_unclosed_details_hang_ex :
  Forall (fun p => ~ In c_lt (fst p) /\ ~ In c_lt (snd p)) [(lit "some text", lit "inside"); ([], lit "more")].
Proof. repeat constructor; vm_compute; intuition discriminate. Qed.

(** It is true for every document in which each opening tag that another one
    follows has a different number of opening and closing tags behind it, and no
    tags in its summary; then the depth of recursion is linear in the length of
    the document.  Missing: documents that exit the loop although the numbers are
    the same at the end of the document. *)
Theorem C02_terminates_partial : forall s, details_closed s -> ~ runs_forever s.
Proof. exact closed_terminates. Qed.
Print Assumptions C02_terminates_partial.

(** In particular if all details blocks are closed and properly nested ... *)
Theorem C02_nested_partial : forall s, nested s -> ~ runs_forever s.
Proof. intros s H. now apply closed_terminates, nested_closed. Qed.
Print Assumptions C02_nested_partial.
Example C02_nested_partial_ex : nested two_blocks.
Proof.
  unfold two_blocks. apply n_seq; [|apply n_seq].
  - apply n_text. vm_compute. intuition discriminate.
  - apply n_block; [vm_compute; intuition discriminate | vm_compute; intuition discriminate|].
    apply n_seq; [apply n_text; vm_compute; intuition discriminate|].
    apply n_block; [vm_compute; intuition discriminate | vm_compute; intuition discriminate|].
    apply n_text. vm_compute. intuition discriminate.
  - apply n_text. vm_compute. intuition discriminate.
Qed.
(** ... or if there is at most one of them, closed or not. *)
Theorem C02_single_partial : forall s,
  (forall x, ~ infix (lit "<details>" ++ x ++ lit "<details>") s) ->
  ~ runs_forever s.
Proof. intros s H. now apply closed_terminates, single_closed. Qed.
Print Assumptions C02_single_partial.

(** ** C01 and C02 together: a result for every document whose custom ids are at the
    ends of headings and whose details blocks are closed. *)
Theorem C01_C02_result_partial : forall s, ids_placed s -> details_closed s -> exists h, renders s h.
Proof.
  intros s N D. apply result_of with (310 + 10 * length s).
  - intros f L. now apply render_nh_closed.
  - now apply id_safe_never_crashes, ids_placed_safe.
Qed.
Print Assumptions C01_C02_result_partial.
Example C01_C02_result_ex : exists h, renders two_blocks h.
Proof.
  eexists. exists 12. vm_compute. reflexivity.
Qed.

(** Every document has exactly one of the three outcomes, and at most one output. *)
Theorem C02_outcome_unique : forall s a b, renders s a -> renders s b -> a = b.
Proof. exact renders_unique. Qed.
Print Assumptions C02_outcome_unique.
Theorem C02_outcomes_exclusive : forall s h,
  renders s h -> ~ crashes s /\ ~ runs_forever s.
Proof.
  intros s h H. split; [exact (renders_not_crashes s h H) | exact (renders_not_forever s h H)].
Qed.
Print Assumptions C02_outcomes_exclusive.

(** Exactly: the outcome of every document, whatever it is, shows at recursion depth
    (and number of rounds of a loop) 310 + 10 n for documents of n characters; what
    has not ended then never ends.  So the outcome can be computed. *)
Theorem C02_outcome_decided : forall s,
  match render (310 + 10 * length s) s with
  | Ret h => renders s h
  | Panic => crashes s
  | Hang => runs_forever s
  end.
Proof.
  intros s. destruct (render (310 + 10 * length s) s) as [h| |] eqn:E.
  - now exists (310 + 10 * length s).
  - now exists (310 + 10 * length s).
  - now apply hang_forever.
Qed.
Print Assumptions C02_outcome_decided.
Theorem C02_outcome_exists : forall s, (exists h, renders s h) \/ crashes s \/ runs_forever s.
Proof.
  intros s. pose proof (C02_outcome_decided s) as H.
  destruct (render (310 + 10 * length s) s) as [h| |]; [left; now exists h | now right; left | now right; right].
Qed.
Print Assumptions C02_outcome_exists.
Example C02_outcome_decided_ex :
  let s := lit "<details>" ++ [c_nl] ++ lit "<summary>a</summary>" ++ [c_nl] ++ lit "<details>" in
  let t := s ++ lit "</details>" in
  (exists h, renders s h) /\ runs_forever t /\ exists h, renders (t ++ lit "</details>") h.
Proof.
  cbv zeta. split; [|split].
  - eexists. exists 9. vm_compute. reflexivity.
  - apply hang_forever. vm_compute. reflexivity.
  - eexists. exists 9. vm_compute. reflexivity.
Qed.

(** ** C29: the output is never empty and properly ended *)
Theorem C29_output_ended : forall s h, renders s h ->
  h <> [] /\ ((exists a, h = a ++ [c_nl]) \/ (exists a, h = a ++ lit "</code></pre>")).
Proof.
  intros s h H. apply renders_ended in H. split; [now apply well_ended_nonempty | exact H].
Qed.
Print Assumptions C29_output_ended.
Example C29_ex : renders [] [c_nl] /\ exists h, renders (lit "    code") h.
Proof. split; [exists 2; vm_compute; reflexivity|]. eexists. exists 5. vm_compute. reflexivity. Qed.

(** ** C39: the lexer makes progress *)

(** The source is divided, without gaps or overlaps, into non-empty pieces, one
    per token, each token being the result of [next_token] on its piece (and what
    follows it). *)
Theorem C39_pieces : forall f s ig ts, lex (S f) s ig = Ret ts ->
  exists pieces, s = concat pieces /\
    Forall2 (fun p t => p <> [] /\ exists last rest,
       next_token (lex f) (fun s ig => bind (lex f s ig) (parse f)) f ig last (p ++ rest)
         = Ret (Some (t, rest))) pieces ts.
Proof. intros f s ig ts. apply lex_loop_pieces. Qed.
Print Assumptions C39_pieces.
Theorem C39_token_count : forall f s ig ts, lex f s ig = Ret ts -> length ts <= length s.
Proof. exact lex_token_count. Qed.
Print Assumptions C39_token_count.
Example C39_ex : exists ts, lex 9 (lit "# a *b* [c](d)") [] = Ret ts /\ length ts = 1.
Proof. eexists. split; vm_compute; reflexivity. Qed.
