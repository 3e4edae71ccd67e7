(** * Properties: lists, tables, quotes, collapsible sections, footnotes (C18 - C28, C61, C62).

    Vocabulary: SpecBlocks.v (sources and expected html), SpecText.v (contexts). *)
From Coq Require Import Ascii String.
From Verif Require Import Strings StringsFacts Token Iter Lexer Parser SanitizeFacts LexMono
  Markdown MarkdownFacts MarkdownSound Decode DecodeFacts SpecText TextFacts SpecBlocks BlockFacts.
Open Scope list_scope.

(** ** C18: ordered lists *)
Theorem C18_ordered_list : forall ps is k, paragraphs ps -> ol_items is ->
  renders (before ps ++ lines (map ol_line is) ++ crep k c_nl)
          (p_tags ps ++ ol_tag (map (fun i => escaped (snd i)) is)).
Proof. exact ol_shown. Qed.
Print Assumptions C18_ordered_list.
(** Text after the list (starting with two characters without a meaning): the items are the same, but the
    end of the list is found one character late. *)
Theorem C18_ordered_list_then_text : forall ps is k x y t qs, paragraphs ps -> ol_items is -> 1 <= k ->
  plain x = true -> plain y = true -> visible x = true -> visible y = true -> trail t = true -> paragraphs qs ->
  renders (before ps ++ lines (map ol_line is) ++ crep k c_nl ++ (x :: y :: t) ++ after qs)
    (p_tags ps ++ lit "<ol>" ++ [c_nl] ++ concat (map (fun i => li_tag (escaped (snd i))) is)
     ++ lit "<p>" ++ esc x ++ lit "</ol>" ++ [c_nl] ++ esc y ++ txt t ++ lit "</p>" ++ [c_nl] ++ p_tags qs).
Proof. exact ol_then_text. Qed.
Print Assumptions C18_ordered_list_then_text.
Definition ol_sample : list (char * str) := [(49%N, lit "a *b* <c>"); (49%N, []); (55%N, lit "- [x] [l](u) # no")].
Example C18_ex : ol_items ol_sample /\
  lines (map ol_line ol_sample) = lit "1. a *b* <c>" ++ [c_nl] ++ lit "1. " ++ [c_nl] ++ lit "7. - [x] [l](u) # no" /\
  ol_tag [lit "x"; lit "y"] = lit "<ol>" ++ [c_nl] ++ lit "<li>" ++ [c_nl] ++ lit "x</li>" ++ [c_nl] ++ lit "<li>" ++ [c_nl] ++ lit "y</li>" ++ [c_nl]
    ++ lit "</ol>" ++ [c_nl] /\ plain 102%N = true /\ visible 102%N = true /\ trail (lit "oo bar") = true.
Proof.
  split; [|now repeat split]. split; [easy|]. repeat constructor; try reflexivity; vm_compute; intuition discriminate.
Qed.

(** ** C19: numbers of several digits: refuted for every one.  All digits but the last are text, and
    the list stands inside the paragraph. *)
Theorem C19_long_number_refuted : forall ps x ds d t, paragraphs ps -> forallb is_digit (x :: ds) = true -> is_digit d = true -> ~ In c_nl t ->
  renders (before ps ++ (x :: ds) ++ d :: lit ". " ++ t)
    (p_tags ps ++ lit "<p>" ++ (x :: ds) ++ lit "<ol>" ++ [c_nl] ++ li_tag (escaped t) ++ lit "</p>" ++ [c_nl] ++ lit "</ol>" ++ [c_nl]).
Proof. exact long_number. Qed.
Print Assumptions C19_long_number_refuted.
Example C19_ex : renders (lit "10. ten")
  (lit "<p>1<ol>" ++ [c_nl] ++ lit "<li>" ++ [c_nl] ++ lit "ten</li>" ++ [c_nl] ++ lit "</p>" ++ [c_nl] ++ lit "</ol>" ++ [c_nl]).
Proof. apply (C19_long_number_refuted [] 49%N [] 48%N (lit "ten")); try reflexivity; [constructor|vm_compute; intuition discriminate]. Qed.

(** ** C20: bullet lists, of ordinary text with any inline constructs *)
Theorem C20_bullet_list : forall ps is k, paragraphs ps -> ul_items is ->
  renders (before ps ++ lines (map ul_line is) ++ crep k c_nl)
          (p_tags ps ++ ul_tag (map (fun i => p_tag (snd i)) is)) /\
  Forall (fun i => renders (snd (fst i)) (p_tag (snd i))) is.
Proof.
  intros ps is k P I. split; [now apply ul_shown|]. destruct I as [_ F]. eapply Forall_impl; [|exact F].
  intros [[m t] h] (_ & I & HI & _). cbn [fst snd] in *. pose proof (doc_renders _ _ (inline_doc false false t h I HI)) as R.
  rewrite <- (app_nil_l (p_tag h)) in R. rewrite with_nl_app in R by apply p_tag_ends. exact R.
Qed.
Print Assumptions C20_bullet_list.
Theorem C20_bullet_list_then_text : forall ps is k x y t qs, paragraphs ps -> ul_items is -> 1 <= k ->
  plain x = true -> plain y = true -> visible x = true -> visible y = true -> trail t = true -> paragraphs qs ->
  renders (before ps ++ lines (map ul_line is) ++ crep k c_nl ++ (x :: y :: t) ++ after qs)
    (p_tags ps ++ lit "<ul>" ++ [c_nl] ++ concat (map (fun i => li_tag (p_tag (snd i))) is)
     ++ lit "<p>" ++ esc x ++ lit "</ul>" ++ [c_nl] ++ esc y ++ txt t ++ lit "</p>" ++ [c_nl] ++ p_tags qs).
Proof. exact ul_then_text. Qed.
Print Assumptions C20_bullet_list_then_text.
Definition ul_sample : list (char * str * str) :=
  [(c_minus, lit "one & two", txt (lit "one & two"));
   (c_star, lit "see [this](http://x.org), ok", txt (lit "see ") ++ a_tag (lit "http://x.org") (lit "this") ++ txt (lit ", ok"));
   (c_plus, lit "3 (three)", txt (lit "3 (three)"))].
Example C20_ex : ul_items ul_sample /\
  lines (map ul_line ul_sample) = lit "- one & two" ++ [c_nl] ++ lit "* see [this](http://x.org), ok" ++ [c_nl] ++ lit "+ 3 (three)".
Proof.
  split; [|reflexivity]. split; [easy|].
  assert (B : forall t, forallb (fun x => negb (starts_with x t)) box_marks = true -> forall x, In x box_marks -> starts_with x t = false).
  { intros t H x I. rewrite forallb_forall in H. apply H in I. now apply negb_true_iff. }
  assert (NI : forall h, contains (lit "<pre>") h = false -> ~ infix (lit "<pre>") h) by (intros h H I; apply contains_iff in I; congruence).
  constructor; [|constructor; [|constructor; [|constructor]]]; (split; [vm_compute; tauto|]); cbn [fst snd];
    (split; [|split; [reflexivity|split; [vm_compute; intuition discriminate|split; [reflexivity|split; [now apply B|now apply NI]]]]]).
  - now apply in_end.
  - apply (in_span [] (lit "see ") (lit "[this](http://x.org)") (lit ", ok")); try reflexivity; [|now apply in_end].
    apply (sp_link (lit "this") (lit "http://x.org") (lit "http://x.org")); try (vm_compute; intuition discriminate).
    apply (href_dest _ _ (lit "http:" ++ amp_escaped (lit "//x.org"))). apply (dest_abs (lit "http") (lit "//x.org")).
    + split; [reflexivity|]. split; [cbn; lia|discriminate].
    + reflexivity.
    + vm_compute; intuition discriminate.
    + discriminate.
  - now apply in_end.
Qed.

(** ** C21: nested items: refuted for every one: nothing of its text [t'] is in the output. *)
Theorem C21_nested_refuted : forall ps m t h m' t' k, paragraphs ps -> In m dashes -> In m' dashes -> item_text t h ->
  ~ In c_nl t' -> starts_in (c_tab :: dashes) t' = false ->
  renders (before ps ++ (m :: [c_sp] ++ t) ++ [c_nl] ++ (lit "  " ++ m' :: t') ++ crep k c_nl)
    (p_tags ps ++ lit "<ul>" ++ [c_nl] ++ lit "<li>" ++ p_tag h ++ [c_nl] ++ lit "</li>" ++ [c_nl] ++ lit "</ul>" ++ [c_nl]).
Proof. exact nested_shown. Qed.
Print Assumptions C21_nested_refuted.
Example C21_ex : item_text (lit "outer") (lit "outer") /\
  starts_in (c_tab :: dashes) (lit " nested **text**") = false.
Proof.
  split; [|reflexivity]. split; [exact (in_end (lit "outer") eq_refl)|].
  split; [reflexivity|split; [vm_compute; intuition discriminate|split; [reflexivity|split]]].
  - intros x [<-|[<-|[<-|[]]]]; reflexivity.
  - intros I. apply contains_iff in I. discriminate I.
Qed.

(** ** C22: task lists, of any texts *)
Theorem C22_task_list : forall ps is k, paragraphs ps -> task_items is ->
  renders (before ps ++ lines (map task_line is) ++ crep k c_nl) (p_tags ps ++ task_tag is).
Proof. exact task_shown. Qed.
Print Assumptions C22_task_list.
Theorem C22_task_list_then_text : forall ps is k x y t qs, paragraphs ps -> task_items is -> 1 <= k ->
  plain x = true -> plain y = true -> visible x = true -> visible y = true -> trail t = true -> paragraphs qs ->
  renders (before ps ++ lines (map task_line is) ++ crep k c_nl ++ (x :: y :: t) ++ after qs)
    (p_tags ps ++ lit "<ul class=""contains-task-list"">" ++ concat (map task_item is)
     ++ lit "<p>" ++ esc x ++ lit "</ul>" ++ [c_nl] ++ esc y ++ txt t ++ lit "</p>" ++ [c_nl] ++ p_tags qs).
Proof. exact task_then_text. Qed.
Print Assumptions C22_task_list_then_text.
Definition task_sample : list (char * box * str) := [(c_minus, Open, lit "to *do*"); (c_plus, UpperX, lit "done"); (c_minus, LowerX, [])].
Example C22_ex : task_items task_sample /\
  lines (map task_line task_sample) = lit "- [ ] to *do*" ++ [c_nl] ++ lit "+ [X] done" ++ [c_nl] ++ lit "- [x] ".
Proof.
  split; [|reflexivity]. split; [easy|]. repeat constructor; try (vm_compute; intuition discriminate); vm_compute; tauto.
Qed.

(** ** C23: tables *)
Theorem C23_table : forall ps heads delims rows k qs, paragraphs ps -> paragraphs qs -> table_ok heads delims rows ->
  Forall (Forall ordinary_cell) rows ->
  renders (before ps ++ table_src heads delims rows ++ follow k qs)
          (with_nl (p_tags ps ++ table_tag (map align_of delims) heads (map (map (fun x => escaped (trim x))) rows) ++ p_tags qs)).
Proof.
  intros ps heads delims rows k qs P Q T C. apply table_shown; auto. destruct T as (_ & _ & _ & _ & _ & _ & BF).
  apply Forall2_map. rewrite Forall_forall in *. intros row I. apply Forall2_map. specialize (C row I). specialize (BF row I).
  rewrite Forall_forall in *. intros x X. left. apply cell_ordinary_trim; auto.
Qed.
Print Assumptions C23_table.
(** Cells with emphasis, escapes, links and code spans (see [cell_shows] for what a
    cell shows; C61 is about the last two). *)
Theorem C23_table_inline : forall ps heads delims rows hrows k qs, paragraphs ps -> paragraphs qs -> table_ok heads delims rows ->
  Forall2 (Forall2 (fun x h => cell_shows (trim x) h)) rows hrows ->
  renders (before ps ++ table_src heads delims rows ++ follow k qs)
          (with_nl (p_tags ps ++ table_tag (map align_of delims) heads hrows ++ p_tags qs)).
Proof. exact table_shown. Qed.
Print Assumptions C23_table_inline.
Definition t_heads : list str := [lit " Name "; lit "Size (kB)"].
Definition t_delims : list str := [lit " :---: "; lit "--:"].
Definition t_rows : list (list str) := [[lit " a & b "; lit " 3.5 "]; [lit "c!"; lit " "]].
Example C23_ex : table_ok t_heads t_delims t_rows /\ Forall (Forall ordinary_cell) t_rows /\
  map align_of t_delims = [AlCenter; AlRight] /\
  table_src t_heads t_delims t_rows =
    lit "| Name |Size (kB)|" ++ [c_nl] ++ lit "| :---: |--:|" ++ [c_nl] ++ lit "| a & b | 3.5 |" ++ [c_nl] ++ lit "|c!| |" ++ [c_nl].
Proof.
  assert (BF : forall x, x <> [] -> existsb (fun c => mem_char c [c_pipe; c_nl]) x = false -> bar_free x).
  { intros x NE H. split; [exact NE|]. split; intros I.
    - assert (K : existsb (fun c => mem_char c [c_pipe; c_nl]) x = true) by (apply existsb_exists; exists c_pipe; now split). congruence.
    - assert (K : existsb (fun c => mem_char c [c_pipe; c_nl]) x = true) by (apply existsb_exists; exists c_nl; now split). congruence. }
  split; [|split; [|now split]].
  - split; [easy|]. split; [easy|]. split; [reflexivity|]. split; [repeat constructor|]. repeat split; repeat constructor; try easy; vm_compute; intuition discriminate.
  - repeat constructor; try reflexivity; vm_compute; intuition discriminate.
Qed.

(** ** C61: a cell shows its content once *)

(** False: a cell of [n] autolinks shows its whole content [n] times. *)
Theorem C61_links_repeated : forall ps head delim us hs k qs, paragraphs ps -> paragraphs qs ->
  bar_free head -> bar_free delim -> us <> [] -> Forall auto_dest us ->
  Forall2 (fun u h => exists href t, dest u href t /\ h = a_tag href t) us hs ->
  renders (before ps ++ table_src [head] [delim] [[concat (map angle us)]] ++ follow k qs)
    (with_nl (p_tags ps ++ table_tag [align_of delim] [head] [[times (length us) (p_tag (concat hs))]] ++ p_tags qs)).
Proof. exact links_repeated. Qed.
Print Assumptions C61_links_repeated.
Definition c61_doc : str :=
  lit "|a|" ++ [c_nl] ++ lit "|-|" ++ [c_nl] ++ lit "|see <http://x.y> and `code`.|" ++ [c_nl].
Theorem C61_once_refuted : exists h, renders c61_doc h /\
  occurrences (lit "see") c61_doc = 1 /\ occurrences (lit "see") h = 3 /\
  occurrences (lit "`code`") c61_doc = 1 /\ occurrences (lit "<code>code") h = 2 /\
  occurrences (lit "<http://x.y>") c61_doc = 1 /\ occurrences (lit "<a href=""http://x.y"">") h = 2.
Proof. eexists. split; [exists 12; vm_compute; reflexivity | vm_compute; repeat split]. Qed.
Print Assumptions C61_once_refuted.
(** True of cells of text, emphasis and escapes.  Missing: cells with links or code
    spans; [C23_table_inline] says for which of them what is shown instead. *)
Theorem C61_text_cells_partial : forall ps heads delims rows hrows k qs, paragraphs ps -> paragraphs qs -> table_ok heads delims rows ->
  Forall2 (Forall2 (fun x h => cell_text None (trim x) h)) rows hrows ->
  renders (before ps ++ table_src heads delims rows ++ follow k qs)
          (with_nl (p_tags ps ++ table_tag (map align_of delims) heads hrows ++ p_tags qs)).
Proof. exact text_cells_shown. Qed.
Print Assumptions C61_text_cells_partial.
Example C61_ex : auto_dest (lit "http://x.y") /\
  cell_text None (lit "a *b*") (lit "a <em>b</em>") /\
  exists h, cell_shows (lit "`a`b") h.
Proof.
  split; [|split].
  - split; [|split; vm_compute; intuition discriminate]. eexists _, _. apply (dest_abs (lit "http") (lit "//x.y")).
    + repeat split; try reflexivity; try (cbn; lia). discriminate.
    + reflexivity.
    + vm_compute; intuition discriminate.
    + discriminate.
  - apply (ct_char None 97%N _ (lit " <em>b</em>")); [reflexivity|].
    apply (ct_spaces None 1 _ (lit "<em>b</em>")); [lia | reflexivity |].
    apply (ct_em None c_star (lit "b") c_star [] []); try (now left); try easy; [|apply ct_nil].
    intros c [<-|[<-|[]]]; vm_compute; intuition discriminate.
  - eexists. right. eexists. split; [exists 8; vm_compute; reflexivity|].
    eapply (ct_code _ _ (lit "`a`")); [reflexivity | |].
    + apply (cs 1 (lit "a")); try reflexivity; try lia; [discriminate|]. rewrite <- contains_iff. vm_compute. discriminate.
    + apply (ct_char _ 98%N [] []); [reflexivity | apply ct_nil].
Qed.

(** ** C24: lines of bars that are no table *)
Theorem C24_malformed_table : forall ps ls k qs, paragraphs ps -> paragraphs qs -> ls <> [] -> malformed ls -> Forall (fun l => ~ In c_nl l) ls ->
  qs = [] \/ 1 <= k -> ~ infix (lit "[^") (bar_block ls) \/ ~ In c_rbrk (bar_block ls) ->
  renders (before ps ++ bar_block ls ++ follow k qs)
    (p_tags ps ++ match k, qs with
     | S (S (S k')), q :: qs' => p_tag (escaped (bar_block ls)) ++ p_tags qs
     (* a single blank line does not end the paragraph *)
     | _, q :: qs' => p_tag (escaped (bar_block ls) ++ txt q) ++ p_tags qs'
     | _, [] => p_tag (escaped (bar_block ls))
     end).
Proof. exact bars_shown. Qed.
Print Assumptions C24_malformed_table.
Example C24_ex : malformed [lit "a|b|"; lit "-|-|"; lit "1|2|3|"] /\ malformed [lit "a|b|"; lit "-|-|"] /\
  bar_block [lit "a|b|"; lit "-|-|"] = lit "|a|b|" ++ [c_nl] ++ lit "|-|-|" /\
  ~ infix (lit "[^") (bar_block [lit "a|b|"; lit "-|-|"]).
Proof.
  split; [|split; [|split; [reflexivity|]]].
  - right. exists (lit "a|b|"), (lit "1|2|3|"). split; [now left|]. split; [right; right; now left|discriminate].
  - left. cbn. lia.
  - intros I. apply contains_iff in I. discriminate I.
Qed.

(** ** C25: quotes *)
Theorem C25_nesting_partial : forall ps is k qs, paragraphs ps -> quotes is -> paragraphs qs -> qs = [] \/ 1 <= k ->
  exists out, renders (before ps ++ lines (map quote_line is) ++ follow k qs) out /\
    (forall i, In i is -> inside (fst i) (p_tag (escaped (escaped (ink (snd i))))) out) /\
    occurrences bq_open out = occurrences bq_close out.
Proof.
  intros ps is k qs P I Q K. eexists. split; [now apply quotes_shown|].
  destruct (occ_p_tags ps) as [E1 E2]. split.
  - intros i J. apply in_split in J as (a & b & ->). destruct (inside_qhtml qs a i b 0) as (pre & post & -> & T & C1 & C2).
    exists (p_tags ps ++ pre), post. split; [now rewrite <- !app_assoc|]. rewrite occ_bq_open, occ_bq_close, E1, E2 by exact T. lia.
  - rewrite occ_bq_open, occ_bq_close, E1, E2 by apply tagged_qhtml. rewrite occ_qhtml. lia.
Qed.
Print Assumptions C25_nesting_partial.
Definition q_sample : list (nat * str) := [(1, lit "one"); (3, lit "three (deep)"); (2, lit "two")].
Example C25_ex : quotes q_sample /\
  lines (map quote_line q_sample) = lit "> one" ++ [c_nl] ++ lit ">>> three (deep)" ++ [c_nl] ++ lit ">> two" /\
  occurrences bq_open (lit "<blockquote> <blockquote></blockquote>") = 2.
Proof.
  split; [|now split]. split; [easy|]. repeat constructor; try (cbn; lia); vm_compute; intuition discriminate.
Qed.
(** Missing: 256 and more levels, for all of which the statement is wrong: the number is taken modulo 256. *)
Theorem C25_deep_refuted : forall ps n t, paragraphs ps -> 1 <= n -> ordinary t = true -> has_ink t = true -> ~ In c_nl t -> starts_in [c_sp] t = false ->
  renders (before ps ++ quote_line (n, t))
    (p_tags ps ++ times (n mod 256) (bq_open ++ [c_nl]) ++ p_tag (escaped (escaped (ink t))) ++ times (n mod 256) (bq_close ++ [c_nl])).
Proof. exact deep_quote. Qed.
Print Assumptions C25_deep_refuted.
Example C25_deep_ex : renders (crep 256 c_gt ++ lit " x") (lit "<p>x</p>" ++ [c_nl]).
Proof.
  assert (N : ~ In c_nl (lit "x")) by (vm_compute; intuition discriminate).
  pose proof (C25_deep_refuted [] 256 (lit "x") (Forall_nil _) ltac:(lia) eq_refl eq_refl N eq_refl) as R. exact R.
Qed.

(** ** C26: quoted text is escaped twice; right only for texts without characters that are escaped. *)
Theorem C26_escaped_twice_refuted : forall named ps n t, html5 named -> paragraphs ps -> 1 <= n < 256 -> ordinary t = true -> has_ink t = true ->
  ~ In c_nl t -> starts_in [c_sp] t = false ->
  exists body, renders (before ps ++ quote_line (n, t)) (p_tags ps ++ times n (bq_open ++ [c_nl]) ++ p_tag body ++ times n (bq_close ++ [c_nl])) /\
    decode named body = escaped (ink t) /\ (decode named body = ink t <-> escaped (ink t) = ink t).
Proof.
  intros named ps n t H P B O HI N S0. exists (escaped (escaped (ink t))).
  assert (D : decode named (escaped (escaped (ink t))) = escaped (ink t)).
  { rewrite <- ink_escaped. apply (decode_txt named (escaped t)); [exact H|now apply escaped_ordinary]. }
  split; [|split; [exact D|now rewrite D]].
  pose proof (deep_quote ps n t P (proj1 B) O HI N S0) as R. rewrite Nat.mod_small in R by lia. exact R.
Qed.
Print Assumptions C26_escaped_twice_refuted.
Example C26_ex : ordinary (lit "a & b") = true /\ escaped (ink (lit "a & b")) <> ink (lit "a & b") /\
  escaped (ink (lit "plain text")) = ink (lit "plain text").
Proof. split; [reflexivity|]. split; [discriminate|reflexivity]. Qed.

(** ** C27: collapsible sections.  (The renderer prints a backslash, a line break, tabs and the letter n before the end
    tag, see [details_tag].) *)
Theorem C27_details_partial : forall ps summary body inner k qs, paragraphs ps -> paragraphs qs -> ~ In c_nl summary -> ~ In c_cr summary ->
  ~ infix (lit "<details>") body -> ~ infix (lit "</details>") body -> displays ([c_nl] ++ body) inner ->
  renders ([c_nl] ++ body) inner /\
  renders (before ps ++ details_src summary body ++ follow k qs)
          (with_nl (p_tags ps ++ details_tag summary inner ++ p_tags qs)).
Proof.
  intros. split; [now apply displays_renders|now apply details_shown].
Qed.
Print Assumptions C27_details_partial.
(** In particular for bodies of paragraphs. *)
Theorem C27_details_paragraphs_partial : forall ps summary j bs k qs, paragraphs ps -> paragraphs qs -> paragraphs bs -> ~ In c_nl summary -> ~ In c_cr summary ->
  renders (before ps ++ details_src summary (follow j bs) ++ follow k qs)
          (with_nl (p_tags ps ++ details_tag summary (with_nl (p_tags bs)) ++ p_tags qs)).
Proof.
  intros ps summary j bs k qs P Q B N1 N2.
  assert (NL : ~ In c_lt (follow j bs)).
  { unfold follow. rewrite in_app_iff. intros [I|I]; [apply repeat_spec in I; discriminate I|]. revert I.
    assert (OF : forall p, paragraph p = true -> ~ In c_lt p) by (intros p PP; apply paragraph_parts in PP as (O & _); apply ordinary_free; [vm_compute; tauto|exact O]).
    destruct B as [|b bs B1 B2]; [easy|]. rewrite in_app_iff. intros [I|I]; [now apply OF in I|]. revert I. clear - B2 OF. induction B2 as [|b bs B1 B2 IH]; [easy|].
    unfold after. cbn [map concat]. fold (after bs). rewrite !in_app_iff. intros [[I|I]|I]; [revert I; vm_compute; intuition discriminate|now apply OF in I|now apply IH]. }
  apply C27_details_partial; auto.
  - intros I. apply (infix_In _ _ c_lt) in I; [easy|now left].
  - intros I. apply (infix_In _ _ c_lt) in I; [easy|now left].
  - exact (displays_paragraphs (S j) bs B).
Qed.
Print Assumptions C27_details_paragraphs_partial.
Example C27_ex : details_src (lit "More & more") (follow 0 [lit "Inside (here)"]) =
  lit "<details>" ++ [c_nl] ++ lit "<summary>More & more</summary>" ++ [c_nl] ++ lit "Inside (here)</details>" /\ paragraphs [lit "Inside (here)"].
Proof. split; [reflexivity|repeat constructor]. Qed.
(** Missing: the stray text, for every section: the element ends in a backslash, a line break, tabs and the letter n. *)
Theorem C27_stray_text_refuted : forall ps summary j bs k qs, paragraphs ps -> paragraphs qs -> paragraphs bs -> ~ In c_nl summary -> ~ In c_cr summary ->
  exists a b, renders (before ps ++ details_src summary (follow j bs) ++ follow k qs)
                      (a ++ [c_bslash; c_nl] ++ crep 7 c_tab ++ lit " n</details>" ++ b).
Proof.
  intros ps summary j bs k qs P Q B N1 N2. pose proof (C27_details_paragraphs_partial ps summary j bs k qs P Q B N1 N2) as R.
  unfold with_nl at 1 in R. unfold details_tag in R. rewrite <- !app_assoc in R. rewrite !(app_assoc _ _ ([c_bslash; c_nl] ++ _)) in R.
  destruct (ends_with _ _); rewrite <- ?app_assoc in R; rewrite !(app_assoc _ _ ([c_bslash; c_nl] ++ _)) in R; eexists _, _; exact R.
Qed.
Print Assumptions C27_stray_text_refuted.

(** ** C28: footnotes *)
Theorem C28_footnotes_partial : forall xs, Forall chunk_ok xs ->
  renders (concat (map chunk_src xs)) (with_nl (concat (map chunk_html xs)) ++ notes_html (concat (map chunk_notes xs))).
Proof. exact chunks_shown. Qed.
Print Assumptions C28_footnotes_partial.
Definition n_sample : list chunk :=
  [CPara (lit "See[^a].") (lit "See" ++ noteref_tag (lit "a") ++ lit "."); CNote (lit "a") (lit " The & note") 1;
   CPara (lit "text") (lit "text"); CNote (lit "b2") (lit "x *y* ") 0; CNote (lit "c") [] 0].
Example C28_ex : Forall chunk_ok n_sample /\ concat (map chunk_notes n_sample) = [(lit "a", lit "The & note"); (lit "b2", lit "x *y*"); (lit "c", [])] /\
  concat (map chunk_src n_sample) =
    lit "See[^a]." ++ [c_nl; c_nl] ++ lit "[^a]: The & note" ++ [c_nl; c_nl] ++ lit "text" ++ [c_nl; c_nl] ++ lit "[^b2]:x *y* " ++ [c_nl] ++ lit "[^c]:" ++ [c_nl].
Proof.
  split; [|now split]. constructor; [|constructor; [|constructor; [|constructor; [|constructor; [|constructor]]]]];
    try (split; [vm_compute; intuition discriminate|split; [reflexivity|vm_compute; intuition discriminate]]).
  - split; [|reflexivity]. split; [|now split].
    apply (in_span [c_colon; c_lpar] (lit "See") (lit "[^a]") (lit ".")); try reflexivity; [|now apply (in_end (lit "."))].
    apply (sp_noteref (lit "a")); [vm_compute; intuition discriminate|]. intros I. apply contains_iff in I. discriminate I.
  - split; [|reflexivity]. split; [|now split]. now apply (in_end (lit "text")).
Qed.
(** Refuted: all footnotes have the same id, whatever their names. *)
Theorem C28_ids_refuted : forall ns, occurrences (lit "<li id=""fn:1"" ") (notes_html ns) = length ns.
Proof.
  intros ns.
  assert (NI : ~ In c_lt (lit "li id=""fn:1"" ")) by (vm_compute; intuition discriminate).
  set (p := lit "li id=""fn:1"" ") in *. change (lit "<li id=""fn:1"" ") with (c_lt :: p).
  assert (LI : forall a r, ~ In c_lt a -> occurrences (c_lt :: p) (a ++ r) = occurrences (c_lt :: p) r).
  { intros a r N. induction a as [|c a IH]; [reflexivity|]. cbn [app occurrences]. rewrite IH by (intros I; apply N; now right).
    cbn [starts_with]. destruct (ceq c_lt c) eqn:E; [|reflexivity]. apply ceq_eq in E. subst c. exfalso. apply N. now left. }
  assert (ONE : forall n r, occurrences (c_lt :: p) (note_li n ++ r) = S (occurrences (c_lt :: p) r)).
  { intros [i t] r. unfold note_li. cbn [fst snd]. rewrite <- !app_assoc.
    transitivity (S (occurrences (c_lt :: p) (escaped t ++ lit "<a href=""#fnref:" ++ escaped i ++ lit """ class=""reversefootnote"" role=""doc-backlink"">" ++ [8617%N]
      ++ lit "</a></p>" ++ [c_tab; c_tab] ++ lit "</li>" ++ r))); [reflexivity|]. f_equal.
    rewrite LI by apply escaped_no_lt.
    transitivity (occurrences (c_lt :: p) (escaped i ++ lit """ class=""reversefootnote"" role=""doc-backlink"">" ++ [8617%N]
      ++ lit "</a></p>" ++ [c_tab; c_tab] ++ lit "</li>" ++ r)); [reflexivity|].
    rewrite LI by apply escaped_no_lt. reflexivity. }
  assert (ALL : forall r, occurrences (c_lt :: p) (concat (map note_li ns) ++ r) = length ns + occurrences (c_lt :: p) r).
  { intros r. induction ns as [|n ns IH]; [reflexivity|]. cbn [map concat length]. rewrite <- app_assoc, ONE, IH. reflexivity. }
  destruct ns as [|n ns]; [reflexivity|]. unfold notes_html.
  transitivity (occurrences (c_lt :: p) (concat (map note_li (n :: ns)) ++ [c_tab] ++ lit "</ol>" ++ [c_nl] ++ lit "</div>" ++ [c_nl])); [reflexivity|].
  rewrite ALL. change (occurrences (c_lt :: p) ([c_tab] ++ lit "</ol>" ++ [c_nl] ++ lit "</div>" ++ [c_nl])) with 0. apply Nat.add_0_r.
Qed.
Print Assumptions C28_ids_refuted.
Example C28_ids_ex : occurrences (lit "<li id=""fn:1"" ") (notes_html [(lit "a", lit "x"); (lit "b", lit "y")]) = 2.
Proof. reflexivity. Qed.

(** ** C62: numbers of footnote references *)

(** Refuted for every paragraph of ordinary text with references: whatever notes
    they refer to, all of them show the number 1. *)
Theorem C62_always_one_refuted : forall xs b, xs <> [] -> Forall ref_ok xs -> trail b = true ->
  starts_in [c_colon; c_lpar] b = false ->
  renders (refs_text xs b) (p_tag (refs_html (fun _ => 1) 1 xs ++ txt b)).
Proof. exact refs_renders. Qed.
Print Assumptions C62_always_one_refuted.
(** Consecutive references in a line that starts with a bar and is no table are
    numbered 1, 2, 3, ... (the text before them is not escaped, see C03).
    Missing: any other document with two references. *)
Theorem C62_numbered_partial : forall ps t ids, paragraphs ps -> ids <> [] ->
  ~ In c_nl t -> ~ In c_rbrk t -> ~ infix (lit "[^") t -> Forall (fun i => ~ In c_nl i /\ note_name i) ids ->
  renders (before ps ++ bar_line (t ++ note_refs ids)) (p_tags ps ++ p_tag (bar_line t ++ numbered 1 ids)).
Proof. exact bar_refs_render. Qed.
Print Assumptions C62_numbered_partial.
Example C62_ex : Forall ref_ok [(lit "one", lit "a"); (lit " two", lit "b")] /\
  refs_text [(lit "one", lit "a"); (lit " two", lit "b")] (lit ".") = lit "one[^a] two[^b]." /\
  refs_html (fun _ => 1) 1 [(lit "one", lit "a"); (lit " two", lit "b")]
    <> refs_html (fun n => n) 1 [(lit "one", lit "a"); (lit " two", lit "b")] /\
  bar_line (lit " x" ++ note_refs [lit "a"; lit "b"]) = lit "| x[^a][^b]" /\
  numbered 1 [lit "a"; lit "b"] = note_tag 1 (lit "a") ++ note_tag 2 (lit "b").
Proof.
  split; [|split; [reflexivity|split; [vm_compute; discriminate|split; reflexivity]]].
  repeat constructor; try (vm_compute; intuition discriminate); rewrite <- contains_iff; vm_compute; discriminate.
Qed.
