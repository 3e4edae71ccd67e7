(** * MarkdownLists: lists, quotes, footnotes, collapsible sections and tables. *)
From Coq Require Import Ascii String.
From Verif Require Import Strings StringsFacts Token Iter Lexer Parser LexerFacts LexMono SanitizeFacts
  LinkFacts NoPanic DetailsFacts RawHtml Exec Markdown MarkdownFacts MarkdownBlocks.
Open Scope list_scope.

(** ** What the tokens do *)
Lemma eff_ol t b c q l : l = LNone \/ l = LOl ->
  effect (OrderedListEntry t) b c q l b c q LOl (list_move l LOl ++ ol_li t) [].
Proof.
  intros H. eff. destruct H as [-> | ->]; (eexists; split; [apply does_ret; intros R PA; reflexivity|]; unfold ol_li; done_eff).
Qed.
Lemma eff_ul t h b c q l : l = LNone \/ l = LUl -> starts_in [c_tab] t = false ->
  renders (trim_start_by (ceq c_sp) t) h ->
  effect (UnorderedListEntry [Plaintext t]) b c q l b c q LUl (list_move l LUl ++ ul_li h) [].
Proof.
  intros H S [f HR]. eff.
  assert (ST : starts_with [c_tab; c_tab] t = false).
  { destruct (starts_with [c_tab; c_tab] t) eqn:E; [|auto]. apply starts_with_iff in E as [y ->]. discriminate S. }
  destruct H as [-> | ->]; (eexists; split;
    [exists f; cbn [pre body is_list_or_newline is_task_or_newline is_inline is_par_closer is_quote_or_newline andb orb
      in_paragraph in_code quote_level in_ordered_list in_unordered_list in_task_list push set_ul mapM list_child bind];
     rewrite ST, HR; cbn [bind]; reflexivity|]; unfold ul_li, pad_code; done_eff).
Qed.
Lemma eff_task ck t b c q l : l = LNone \/ l = LTask ->
  effect (TaskListItem (if ck : bool then Checked else Unchecked) t) b c q l b c q LTask (list_move l LTask ++ task_li ck t) [].
Proof.
  intros H. eff. destruct H as [-> | ->], ck;
    (eexists; split; [apply does_ret; intros R PA; reflexivity|]; unfold task_li; done_eff).
Qed.
Lemma quote_move_tags q n : quote_move q n = quote_tags q n.
Proof.
  unfold quote_move, quote_tags. rewrite !times_nrep. destruct (n =? q) eqn:E.
  - apply Nat.eqb_eq in E. subst. rewrite Nat.sub_diag. reflexivity.
  - destruct (n <? q) eqn:E2.
    + apply Nat.ltb_lt in E2. replace (n - q) with 0 by lia. cbn [nrep]. now rewrite app_nil_r.
    + apply Nat.ltb_ge in E2. replace (q - n) with 0 by lia. reflexivity.
Qed.
Lemma eff_quote n t h b c q : t <> [] -> renders (escaped (trim_start_by (ceq c_sp) t)) h ->
  effect (BlockQuote n t) b c q LNone false c n LNone
    ((if b then lit "</p>" else []) ++ quote_tags q n ++ replace [c_tab] (lit "  ") h) [].
Proof.
  intros NE [f HR]. rewrite escaped_sanitize in HR. eff.
  assert (E : is_empty t = false) by (now destruct t).
  rewrite <- quote_move_tags.
  destruct b, q; (eexists; split;
    [exists f; cbn [pre body is_list_or_newline is_task_or_newline is_inline is_par_closer is_quote_or_newline andb orb negb Nat.eqb
      in_paragraph in_code quote_level in_ordered_list in_unordered_list in_task_list push set_par set_quote];
     rewrite E, HR; cbn [bind]; reflexivity|]; done_eff).
Qed.
Lemma eff_note i t b c q : effect (Footnote i t) b c q LNone b c q LNone [] [(i, t)].
Proof. eff. eexists. split; [apply does_ret; intros R PA; reflexivity|]. done_eff. Qed.
Lemma eff_detail summary toks h b c q : parses toks h ->
  effect (Detail summary toks) b c q LNone false c q LNone (close_p b ++ details_tag summary h) [].
Proof.
  intros [f HP]. eff.
  destruct b; (eexists; split;
    [exists f; cbn [pre body is_list_or_newline is_task_or_newline is_inline is_par_closer is_quote_or_newline andb orb negb
      in_paragraph in_code quote_level in_ordered_list in_unordered_list in_task_list push set_par];
     rewrite HP; cbn [bind]; reflexivity|]; unfold details_tag, detail_html, close_p; done_eff).
Qed.

(** ** Lists *)
Lemma lex_ol hd r d t : is_digit d = true -> no_nl t -> line_end r ->
  lexed hd (d :: lit ". " ++ t) (OrderedListEntry t) r.
Proof.
  intros D N E. apply lexed_ok, disp_digit; [exact D|].
  change ((lit ". " ++ t) ++ r) with (c_dot :: c_sp :: t ++ r). unfold lex_numbers, next_if_eq, consume_while.
  rewrite !ceq_refl. destruct (line_take t r N E) as [-> ->]. reflexivity.
Qed.
Lemma skip_after r : skip_if_eq c_nl r = after_nl r.
Proof. unfold skip_if_eq, after_nl. destruct r as [|c r]; [auto|]. cbn [next_if_eq]. now destruct (ceq c c_nl). Qed.
Lemma next_after r : line_end r -> next r = after_nl r.
Proof. intros [->|[r' ->]]; reflexivity. Qed.
Lemma no_paragraphs r : (forall r', r <> [c_nl; c_nl; c_tab] ++ r') -> list_paragraphs (S (length r)) r = Some ([], r).
Proof.
  intros H. cbn [list_paragraphs]. unfold ahead_is.
  destruct (starts_with _ r) eqn:E; [exfalso|auto]. apply starts_with_iff in E as [y E]. eapply H, E.
Qed.
Lemma split_line_prefix r : exists y, r = fst (split_line r) ++ y.
Proof.
  unfold split_line. destruct (split_once c_nl r) as [[a b]|] eqn:E; cbn [fst].
  - apply split_once_some in E as [-> _]. exists b. now rewrite <- app_assoc.
  - exists []. now rewrite app_nil_r.
Qed.
Lemma starts_prefix p l y : starts_with p l = true -> starts_with p (l ++ y) = true.
Proof. intros H. apply starts_with_iff in H as [z ->]. rewrite <- app_assoc. apply starts_with_app. Qed.
Lemma item_plain L t r toks : (forall ck mk y, task_mark ck mk -> t <> mk ++ y) -> no_continuation r ->
  list_item_token L t toks (after_nl r) = Ret (LOk (UnorderedListEntry toks) (after_nl r)).
Proof.
  intros NT (_ & N2 & N3). unfold list_item_token.
  assert (A : forall p ck, task_mark ck p -> starts_with p t = false).
  { intros p ck M. destruct (starts_with p t) eqn:E; [exfalso|auto]. apply starts_with_iff in E as [y E]. eapply NT; eauto. }
  rewrite (A (lit " [ ] ") false), (A (lit " [x] ") true), (A (lit " [X] ") true) by (cbn; auto). cbn [orb].
  unfold peek_line_ahead. destruct (after_nl r) as [|x r'] eqn:ER; [reflexivity|]. rewrite <- ER in *. 
  destruct (split_line_prefix (after_nl r)) as [y Y].
  destruct (starts_with (lit "  ") (fst (split_line (after_nl r)))) eqn:E1.
  { exfalso. apply (starts_prefix _ _ y) in E1. rewrite <- Y in E1. apply starts_with_iff in E1 as [z E1]. eapply N2, E1. }
  destruct (starts_with [c_tab] (fst (split_line (after_nl r)))) eqn:E2.
  { exfalso. apply (starts_prefix _ _ y) in E2. rewrite <- Y in E2. apply starts_with_iff in E2 as [z E2]. eapply N3, E2. }
  reflexivity.
Qed.
Lemma plus_minus_one L m t r : In m dashes -> starts_in dashes (t ++ r) = false -> no_nl t -> line_end r ->
  (forall r', r <> [c_nl; c_nl; c_tab] ++ r') ->
  lex_plus_minus L (m :: t ++ r) = list_item_token L t [Plaintext t] (after_nl r).
Proof.
  intros M S0 N E NC. unfold lex_plus_minus, consume_while. fold is_dash.
  change (m :: t ++ r) with ([m] ++ t ++ r).
  destruct (run_take dashes [m] (t ++ r) is_dash) as [-> ->]; auto using is_dash_in.
  { apply dashes_forall. intros x [<-|[]]. exact M. }
  cbn [length]. destruct (line_take t r N E) as [-> ->]. rewrite no_paragraphs by exact NC.
  now rewrite substring_app, skip_after.
Qed.
Lemma line_end_no cs r : ~ In c_nl cs -> line_end r -> starts_in cs r = false.
Proof.
  intros N [->|[r' ->]]; [auto|]. cbn [starts_in]. destruct (mem_char c_nl cs) eqn:E; [|auto]. apply mem_char_iff in E. easy.
Qed.
Lemma starts_in_more cs t r : starts_in cs t = false -> starts_in cs r = false -> starts_in cs (t ++ r) = false.
Proof. now destruct t. Qed.
(** Lexing a construct whose end (a line break) is consumed too. *)
Definition lexed_to (hd : bool) (s : str) (t : token) (r r' : str) : Prop :=
  forall last, tok_step (ig_of hd) last (s ++ r) t r'.
Lemma lexed_toE hd c s r r' s1 t : s = c :: s1 -> disp hd c (s ++ r) (LOk t r') -> lexed_to hd s t r r'.
Proof. intros -> H last. exists 0. cbn [app next_token]. cbn [app] in H. now rewrite H. Qed.
Lemma lex_ul hd r m t : In m dashes -> no_nl t -> line_end r -> starts_in (c_tab :: dashes) t = false ->
  (forall ck mk y, task_mark ck mk -> t <> mk ++ y) -> no_continuation r ->
  lexed_to hd (m :: t) (UnorderedListEntry [Plaintext t]) r (after_nl r).
Proof.
  intros M N E S0 NT NC. eapply lexed_toE; [reflexivity|]. apply disp_dash; [exact M|]. intros L. fold (app t r).
  rewrite plus_minus_one; auto.
  - now apply item_plain.
  - apply starts_in_more; [|apply line_end_no; [|exact E]; intros [I|[I|[]]]; discriminate I].
    destruct t as [|x t]; [auto|]. cbn [starts_in] in *. destruct (mem_char x dashes) eqn:X; [|auto].
    apply mem_char_iff in X. assert (Y : mem_char x (c_tab :: dashes) = true) by (apply mem_char_iff; now right). congruence.
  - apply NC.
Qed.
Lemma lex_task hd r m ck mk t : In m dashes -> task_mark ck mk -> no_nl t -> line_end r ->
  (forall r', r <> [c_nl; c_nl; c_tab] ++ r') ->
  lexed_to hd (m :: mk ++ t) (TaskListItem (if ck : bool then Checked else Unchecked) t) r (after_nl r).
Proof.
  intros M T N E NC. eapply lexed_toE; [reflexivity|]. apply disp_dash; [exact M|]. intros L. fold (app (mk ++ t) r).
  assert (NM : no_nl (mk ++ t)).
  { intros I. apply in_app_iff in I as [I|I]; [|auto]. destruct ck; [destruct T as [-> | ->]|cbn in T; subst mk];
      revert I; vm_compute; intuition discriminate. }
  assert (SM : starts_in dashes ((mk ++ t) ++ r) = false).
  { destruct ck; [destruct T as [-> | ->]|cbn in T; subst mk]; reflexivity. }
  rewrite plus_minus_one; auto. unfold list_item_token.
  destruct ck; [destruct T as [-> | ->]|cbn in T; subst mk].
  - rewrite (starts_with_app (lit " [x] ")). reflexivity.
  - rewrite (starts_with_app (lit " [X] ")). reflexivity.
  - rewrite (starts_with_app (lit " [ ] ")). reflexivity.
Qed.
Lemma lex_ul_star hd r m t : In m star_under -> no_nl t -> line_end r ->
  lexed_to hd (m :: c_sp :: t) (UnorderedListEntry [Plaintext t]) r (after_nl r).
Proof.
  intros M N E. eapply lexed_toE; [reflexivity|]. intros L R k last.
  rewrite (disp_star hd m _ M L R k last). f_equal. unfold lex_asterisk_underscore, consume_while. fold aster.
  change ((m :: c_sp :: t) ++ r) with ([m] ++ c_sp :: t ++ r).
  destruct (run_take (c_tab :: star_under) [m] (c_sp :: t ++ r) aster) as [-> ->]; auto using aster_in.
  { apply star_under_aster. intros x [<-|[]]. exact M. }
  cbn [length Nat.eqb next_if_eq]. change (ceq c_sp c_sp) with true. cbn iota.
  destruct (line_take t r N E) as [-> ->]. now rewrite next_after.
Qed.

(** ** Items followed by an indented line *)
Lemma tab_dash_start t : starts_in (c_tab :: dashes) t = false -> starts_in [c_tab] t = false /\ starts_in dashes t = false.
Proof.
  intros H. split; eapply starts_in_incl; try exact H; intros x I; [destruct I as [<-|[]]; now left | now right].
Qed.
Definition child_out (t : token) (h : str) : Prop :=
  exists f, forall f', f <= f' -> list_child (render f') t = Ret h.
Lemma child_plain t h : starts_in [c_tab] t = false -> renders (trim_start_by (ceq c_sp) t) h ->
  child_out (Plaintext t) (pad_code h).
Proof.
  intros S0 [f HR]. exists f. intros f' L. cbn [list_child].
  assert (ST : starts_with [c_tab; c_tab] t = false).
  { destruct (starts_with [c_tab; c_tab] t) eqn:E; [|auto]. apply starts_with_iff in E as [y ->]. discriminate S0. }
  rewrite ST. rewrite (le_res_ret _ _ _ (render_mono f f' _ L) HR). reflexivity.
Qed.
Lemma child_other t : is_plaintext t = false -> child_out t [].
Proof. intros H. exists 0. intros f' _. now destruct t. Qed.
Lemma children_out toks parts : Forall2 child_out toks parts ->
  exists f, forall f', f <= f' -> mapM (list_child (render f')) toks = Ret parts.
Proof.
  induction 1 as [|t p toks parts [f1 H1] _ [f2 H2]]; [exists 0; auto|]. exists (f1 + f2). intros f' L. cbn [mapM].
  rewrite H1 by lia. cbn [bind]. now rewrite H2 by lia.
Qed.
Lemma eff_ul_toks toks parts b c q l : l = LNone \/ l = LUl -> Forall2 child_out toks parts ->
  effect (UnorderedListEntry toks) b c q l b c q LUl
    (list_move l LUl ++ lit "<li>" ++ (if forallb is_plaintext toks then [c_nl] else []) ++ concat parts
     ++ lit "</li>" ++ [c_nl]) [].
Proof.
  intros H F. destruct (children_out _ _ F) as [f HF]. eff.
  destruct H as [-> | ->]; (eexists; split;
    [exists f; cbn [pre body is_list_or_newline is_task_or_newline is_inline is_par_closer is_quote_or_newline andb orb
      in_paragraph in_code quote_level in_ordered_list in_unordered_list in_task_list push set_ul];
     rewrite (HF f (le_n f)); cbn [bind]; reflexivity|]; done_eff).
Qed.
Lemma renders_nil : renders [] [c_nl].
Proof. exists 2. reflexivity. Qed.
Lemma child_spaces n : child_out (Plaintext (crep n c_sp)) [c_nl].
Proof.
  change [c_nl] with (pad_code [c_nl]). apply child_plain.
  - destruct n; reflexivity.
  - unfold trim_start_by. rewrite drop_while_all by (now apply crep_forall). apply renders_nil.
Qed.
Lemma eff_ul_nested t tok h b c q l : l = LNone \/ l = LUl -> starts_in [c_tab] t = false /\ starts_in dashes t = false ->
  is_plaintext tok = false -> renders (trim_start_by (ceq c_sp) t) h ->
  effect (UnorderedListEntry [Plaintext t; Plaintext (lit "  "); tok]) b c q l b c q LUl
    (list_move l LUl ++ ul_li_nested h) [].
Proof.
  intros HL [S0 _] NP R. pose proof (eff_ul_toks [Plaintext t; Plaintext (lit "  "); tok] [pad_code h; [c_nl]; []] b c q l HL) as E.
  cbn [forallb is_plaintext andb] in E. rewrite NP in E. unfold ul_li_nested. cbn [concat app] in E. rewrite <- app_assoc in E.
  apply E. repeat constructor; [now apply child_plain | apply (child_spaces 2) | now apply child_other].
Qed.
Lemma peek_line r x : x ++ [c_nl] ++ r = x ++ [c_nl] ++ r -> no_nl x ->
  split_line (x ++ c_nl :: r) = (x ++ [c_nl], r).
Proof.
  intros _ N. unfold split_line. assert (E : split_once c_nl (x ++ c_nl :: r) = Some (x, r)) by (now apply split_once_some).
  now rewrite E.
Qed.
Lemma split_line_end r x : no_nl x -> line_end r -> split_line (x ++ r) = (x ++ firstn 1 r, after_nl r).
Proof.
  intros N [->|[r' ->]].
  - rewrite !app_nil_r. unfold split_line. destruct (split_once c_nl x) as [[a b]|] eqn:E; [|auto].
    apply split_once_some in E as [-> _]. exfalso. apply N. apply in_or_app. right. now left.
  - now apply peek_line.
Qed.
Lemma steps_lex ig s ts last : steps ig None s ts last [] -> exists f, forall f', f <= f' -> lex f' s ig = Ret ts.
Proof. intros H. apply steps_lexes in H. now apply lexes_at. Qed.
(** An item with an indented line [x] below, whose tokens are [ts]. *)
Lemma lex_ul_sub hd r m t x ts last : In m dashes -> no_nl t -> no_nl x -> line_end r ->
  starts_in (c_tab :: dashes) t = false -> (forall ck mk y, task_mark ck mk -> t <> mk ++ y) ->
  steps [] None (lit "  " ++ x ++ firstn 1 r) ts last [] ->
  lexed_to hd (m :: t ++ c_nl :: lit "  " ++ x) (UnorderedListEntry (Plaintext t :: ts)) r (after_nl r).
Proof.
  intros M N NX E S0 NT ST lst. destruct (steps_lex _ _ _ _ ST) as [f HL].
  exists f. cbn [app next_token]. rewrite <- app_assoc.
  set (z := (c_nl :: lit "  " ++ x) ++ r).
  assert (D : dispatch (lex f) (render_ignore f) f (ig_of hd) lst m (m :: t ++ z) = lex_plus_minus (lex f) (m :: t ++ z)).
  { destruct M as [<-|[<-|[]]]; destruct hd; reflexivity. }
  rewrite D. clear D.
  rewrite plus_minus_one; auto.
  2:{ apply starts_in_more; [now apply tab_dash_start | reflexivity]. }
  2:{ right. eexists. reflexivity. }
  2:{ intros r' K. unfold z in K. discriminate K. }
  unfold list_item_token.
  assert (A : forall p ck, task_mark ck p -> starts_with p t = false).
  { intros p ck MK. destruct (starts_with p t) eqn:E2; [exfalso|auto]. apply starts_with_iff in E2 as [y E2]. eapply NT; eauto. }
  rewrite (A (lit " [ ] ") false), (A (lit " [x] ") true), (A (lit " [X] ") true) by (cbn; auto). cbn [orb].
  change (after_nl z) with (lit "  " ++ x ++ r).
  assert (SL : split_line (lit "  " ++ x ++ r) = ((lit "  " ++ x) ++ firstn 1 r, after_nl r)).
  { rewrite app_assoc. apply split_line_end; [|exact E]. intros I. apply in_app_iff in I as [I|I]; [|auto].
    revert I. vm_compute. intuition discriminate. }
  unfold peek_line_ahead, consume_line_ahead. rewrite SL. cbn [fst].
  change (lit "  " ++ x ++ r) with (c_sp :: c_sp :: x ++ r). cbn iota. rewrite <- app_assoc.
  change (starts_with (lit "  ") (lit "  " ++ x ++ firstn 1 r)) with true. cbn iota. rewrite HL by lia. reflexivity.
Qed.
Lemma lex_ul_nested hd r m t m' t' : In m dashes -> In m' dashes -> no_nl t -> no_nl t' -> line_end r ->
  starts_in (c_tab :: dashes) t = false -> starts_in (c_tab :: dashes) t' = false ->
  (forall ck mk y, task_mark ck mk -> t <> mk ++ y) ->
  exists tok, is_plaintext tok = false /\
    lexed_to hd (m :: t ++ c_nl :: lit "  " ++ m' :: t') (UnorderedListEntry [Plaintext t; Plaintext (lit "  "); tok]) r (after_nl r).
Proof.
  intros M M' N N' E S0 S0' NT.
  assert (LE : line_end (firstn 1 r)). { destruct E as [->|[r' ->]]; [now left | right; now exists []]. }
  assert (AF : after_nl (firstn 1 r) = []). { destruct E as [->|[r' ->]]; reflexivity. }
  assert (NC : no_continuation (firstn 1 r)).
  { destruct E as [->|[r' ->]]; (split; [|split]); intros z K; discriminate K. }
  assert (X : exists tok, is_plaintext tok = false /\ lexed_to false (m' :: t') tok (firstn 1 r) []).
  { destruct (starts_with (lit " [ ] ") t') eqn:E1; [|destruct (starts_with (lit " [x] ") t') eqn:E2; [|destruct (starts_with (lit " [X] ") t') eqn:E3]].
    - apply starts_with_iff in E1 as [y ->]. eexists. split; [|rewrite <- AF; apply (lex_task false (firstn 1 r) m' false (lit " [ ] ") y); auto].
      + reflexivity.
      + reflexivity.
      + intros I. apply N', in_or_app. auto.
      + apply NC.
    - apply starts_with_iff in E2 as [y ->]. eexists. split; [|rewrite <- AF; apply (lex_task false (firstn 1 r) m' true (lit " [x] ") y); auto].
      + reflexivity.
      + now left.
      + intros I. apply N', in_or_app. auto.
      + apply NC.
    - apply starts_with_iff in E3 as [y ->]. eexists. split; [|rewrite <- AF; apply (lex_task false (firstn 1 r) m' true (lit " [X] ") y); auto].
      + reflexivity.
      + now right.
      + intros I. apply N', in_or_app. auto.
      + apply NC.
    - eexists. split; [|rewrite <- AF; apply lex_ul; auto]; [reflexivity|].
      intros [|] mk y T K; [destruct T as [-> | ->]|cbn in T; subst mk]; rewrite K, starts_with_app in *; discriminate. }
  destruct X as (tok & NP & L). exists tok. split; [exact NP|].
  apply (lex_ul_sub hd r m t (m' :: t') [Plaintext (lit "  "); tok] (Some tok)); auto.
  { intros [K0|I]; [|auto]. rewrite K0 in M'. destruct M' as [K|[K|[]]]; discriminate K. }
  econstructor; [|apply steps_one; apply L].
  apply (lex_blanks false ((m' :: t') ++ firstn 1 r) 2); [lia|]. destruct M' as [<-|[<-|[]]]; reflexivity.
Qed.
Lemma renders_plain c : plain c = true -> is_whitespace c = false ->
  renders [c] (lit "<p>" ++ esc c ++ lit "</p>" ++ [c_nl]).
Proof.
  intros P W.
  assert (S0 : steps [] None [c] [Plaintext [c]] (Some (Plaintext [c])) []).
  { apply steps_one. apply (lexed_ok false c [] [] (Plaintext [c])). now apply disp_plain. }
  assert (V : visible c = true) by (unfold visible; now rewrite W).
  pose proof (out_char c) as O. unfold show in O. rewrite V, W in O.
  destruct (eff_open _ _ false 0 LNone O pinit) as (p' & D & (A1 & A2 & A3 & A4 & A5 & A6) & H & R); [repeat split|].
  cbn [times repeat concat app] in H.
  replace (lit "<p>" ++ esc c ++ lit "</p>" ++ [c_nl]) with (finish p').
  - eapply (exec_renders [c]); [exact S0 | now apply plays_one].
  - unfold finish. rewrite A1, A2, A3, A4, A5, A6, R, H. cbn [html references pinit app nrep orb refs_html].
    rewrite !app_nil_r. unfold ends_nl. rewrite (app_assoc _ (lit "</p>")), ends_with_app. now rewrite <- !app_assoc.
Qed.
Lemma renders_nl : renders [c_nl] [c_nl].
Proof. exists 2. reflexivity. Qed.
Lemma lazy_steps u hu r : lazy_text u hu -> line_end r -> no_nl u -> forall last,
  exists ts parts last', steps [] last (u ++ firstn 1 r) ts last' [] /\ forallb is_plaintext ts = true /\
    Forall2 child_out ts parts /\ concat parts = hu ++ (if starts_in [c_nl] r then [c_nl] else []).
Proof.
  intros LZ E. induction LZ as [|c u h P W LZ IH|u h S0 LZ IH]; intros N last.
  - destruct E as [->|[r' ->]].
    + exists [], [], last. repeat split; constructor.
    + exists [Plaintext [c_nl]], [[c_nl]], (Some (Plaintext [c_nl])). cbn [app firstn]. split.
      * apply steps_one. apply (lex_newline false []). reflexivity.
      * split; [reflexivity|]. split; [|reflexivity]. constructor; [|constructor].
        change [c_nl] with (pad_code [c_nl]) at 2. apply child_plain; [reflexivity | apply renders_nl].
  - destruct (IH ltac:(intros I; apply N; now right) (Some (Plaintext [c]))) as (ts & parts & last' & S1 & F & C & EQ).
    exists (Plaintext [c] :: ts), (pad_code (lit "<p>" ++ esc c ++ lit "</p>" ++ [c_nl]) :: parts), last'.
    split; [econstructor; [|exact S1]|]. { apply (lexed_ok false c [] (u ++ firstn 1 r)), disp_plain, P. }
    split; [exact F|]. split; [constructor; [|exact C]|cbn [concat]; rewrite EQ; now rewrite <- app_assoc].
    apply child_plain.
    + cbn [starts_in]. destruct (mem_char c [c_tab]) eqn:K; [|auto]. apply mem_char_iff in K as [<-|[]]. discriminate W.
    + assert (K : ceq c_sp c = false) by (apply ceq_neq; intros <-; discriminate W).
      unfold trim_start_by. cbn [drop_while]. rewrite K. now apply renders_plain.
  - destruct (IH ltac:(intros I; apply N; now right) (Some (Plaintext [c_sp]))) as (ts & parts & last' & S1 & F & C & EQ).
    exists (Plaintext [c_sp] :: ts), ([c_nl] :: parts), last'.
    split; [econstructor; [|exact S1]|].
    { apply (lex_blanks false (u ++ firstn 1 r) 1); [lia|]. apply starts_in_more; [exact S0|].
      destruct E as [->|[r' ->]]; reflexivity. }
    split; [exact F|]. split; [constructor; [|exact C]|cbn [concat]; rewrite EQ; reflexivity].
    apply (child_spaces 1).
Qed.
Lemma lex_ul_lazy hd r m t u hu : In m dashes -> no_nl t -> no_nl u -> line_end r ->
  starts_in (c_tab :: dashes) t = false -> starts_in blank_chars u = false -> lazy_text u hu ->
  (forall ck mk y, task_mark ck mk -> t <> mk ++ y) ->
  exists toks parts, lexed_to hd (m :: t ++ c_nl :: lit "  " ++ u) (UnorderedListEntry (Plaintext t :: Plaintext (lit "  ") :: toks)) r (after_nl r) /\
    (forallb is_plaintext toks = true /\ Forall2 child_out toks parts) /\
    concat parts = hu ++ (if starts_in [c_nl] r then [c_nl] else []).
Proof.
  intros M N N' E S0 S0' LZ NT.
  destruct (lazy_steps u hu r LZ E N' (Some (Plaintext (lit "  ")))) as (ts & parts & last' & S1 & F & C & EQ).
  exists ts, parts. split; [|auto]. eapply (lex_ul_sub hd r m t u); auto.
  econstructor; [|exact S1]. apply (lex_blanks false (u ++ firstn 1 r) 2); [lia|].
  apply starts_in_more; [exact S0'|]. destruct E as [->|[r' ->]]; reflexivity.
Qed.
Lemma eff_ul_lazy t toks parts h hu (nl : bool) b c q l : l = LNone \/ l = LUl -> starts_in [c_tab] t = false /\ starts_in dashes t = false ->
  renders (trim_start_by (ceq c_sp) t) h ->
  forallb is_plaintext toks = true /\ Forall2 child_out toks parts ->
  concat parts = hu ++ (if nl then [c_nl] else []) ->
  effect (UnorderedListEntry (Plaintext t :: Plaintext (lit "  ") :: toks)) b c q l b c q LUl
    (list_move l LUl ++ ul_li_lazy h hu nl) [].
Proof.
  intros HL [S0 _] R [F C] EQ.
  pose proof (eff_ul_toks (Plaintext t :: Plaintext (lit "  ") :: toks) (pad_code h :: [c_nl] :: parts) b c q l HL) as E.
  cbn [forallb is_plaintext andb] in E. rewrite F in E. cbn [concat] in E. rewrite EQ in E.
  unfold ul_li_lazy. rewrite <- !app_assoc in E.
  apply E. constructor; [now apply child_plain|]. constructor; [apply (child_spaces 2) | exact C].
Qed.

(** ** Quotes *)
Lemma lex_quote hd r n t : 1 <= n -> no_nl t -> starts_in blank_chars t = true -> line_end r ->
  lexed_to hd (crep n c_gt ++ t) (BlockQuote (n mod 256) t) r (after_nl r).
Proof.
  intros Hn N S0 E. destruct (crep_cons n c_gt ltac:(lia)) as (n' & E' & EC).
  eapply (lexed_toE hd c_gt); [rewrite EC; reflexivity|]. intros L R k last.
  assert (G : lex_blockquotes ((crep n c_gt ++ t) ++ r) = LOk (BlockQuote (n mod 256) t) (after_nl r)).
  { unfold lex_blockquotes, consume_while. rewrite <- app_assoc.
    destruct (run_take [c_gt] (crep n c_gt) (t ++ r) (ceq c_gt)) as [-> ->].
    { apply crep_forall, ceq_refl. }
    { intros c I. apply ceq_eq in I. subst. now left. }
    { destruct t as [|x t]; [discriminate S0|]. cbn [starts_in] in S0. apply mem_char_iff in S0. destruct S0 as [<-|[<-|[]]]; reflexivity. }
    assert (P : peek_is c_sp (t ++ r) || peek_is c_tab (t ++ r) = true).
    { destruct t as [|x t]; [discriminate S0|]. cbn [starts_in] in S0. apply mem_char_iff in S0. destruct S0 as [<-|[<-|[]]]; reflexivity. }
    rewrite P. destruct (line_take t r N E) as [-> ->]. now rewrite crep_length, skip_after. }
  unfold dispatch. rewrite G. destruct hd; reflexivity.
Qed.

(** ** Footnotes *)
Lemma drop_while_snoc f t x : f x = true -> drop_while f (t ++ [x]) = (if forallb f t then [] else drop_while f t ++ [x]).
Proof.
  intros H. induction t as [|y t IH]; cbn [app drop_while forallb]; [now rewrite H|].
  destruct (f y) eqn:E; cbn [andb]; [exact IH | reflexivity].
Qed.
Lemma trim_snoc t x : is_whitespace x = true -> trim (t ++ [x]) = trim t.
Proof.
  intros W. unfold trim, trim_start_by. rewrite drop_while_snoc by exact W.
  destruct (forallb is_whitespace t) eqn:F; [now rewrite drop_while_all|].
  unfold trim_end. apply trim_end_by_app. cbn. now rewrite W.
Qed.
Lemma lex_note hd r i t : ~ In c_rbrk i -> existsb is_whitespace i = false -> no_nl t -> starts_in blank_chars r = false ->
  lexed hd (lit "[^" ++ i ++ lit "]:" ++ t ++ [c_nl]) (Footnote i (trim t)) r.
Proof.
  intros N1 W N2 S0. eapply (lexed_okE hd c_lbrk); [reflexivity|]. apply disp_lbrk. rewrite <- !app_assoc.
  set (z := t ++ [c_nl] ++ r).
  replace (lit "[^" ++ i ++ lit "]:" ++ z) with (lit "[" ++ (lit "^" ++ i) ++ lit "]" ++ c_colon :: z) by (now rewrite <- !app_assoc).
  rewrite links_closed by (intros [I|I]; [discriminate I|auto]).
  change (lit "^" ++ i) with ([c_caret] ++ i). rewrite (starts_with_app [c_caret] i). cbn [next_if_eq]. change (ceq c_colon c_colon) with true. cbn iota.
  unfold lex_footnote.
  assert (FL : footnote_lines (S (length z)) z = Some (inl r)).
  { cbn [footnote_lines]. unfold z. destruct (text_take not_nl t ([c_nl] ++ r)) as [_ ->].
    { now apply not_nl_forall. }
    { right. exists c_nl, r. auto. }
    cbn [app next tl]. rewrite !(starts_in_peek _ _ r S0) by (cbn; tauto). reflexivity. }
  rewrite FL. rewrite (strip_prefix_app [c_caret] i). cbn [or_empty]. rewrite W.
  unfold z. replace (t ++ [c_nl] ++ r) with ((t ++ [c_nl]) ++ r) by (now rewrite <- app_assoc).
  rewrite substring_app. now rewrite trim_snoc.
Qed.

(** ** Collapsible sections *)
(** A tag that starts with [c] and has no other [c] cannot straddle a [c]. *)
Lemma infix_tag_split c p x z : ~ In c p -> infix (c :: p) (x ++ c :: z) -> infix (c :: p) x \/ infix (c :: p) (c :: z).
Proof.
  intros N (a & b & H). destruct (app_eq_app_cases x (c :: z) a ((c :: p) ++ b) H) as [(w & E1 & E2)|(w & E1 & E2)].
  - destruct w as [|y w]; [right; exists [], b; now rewrite E2|].
    cbn [app] in E2. injection E2 as <- E2.
    destruct (app_eq_app_cases p b w (c :: z) E2) as [(v & F1 & F2)|(v & F1 & F2)].
    + destruct v as [|y' v].
      * rewrite app_nil_r in F1. subst w. left. exists a, []. now rewrite E1, app_nil_r.
      * injection F2 as <- F2. exfalso. apply N. rewrite F1. apply in_or_app. right. now left.
    + left. exists a, v. now rewrite E1, F1.
  - right. exists w, b. exact E2.
Qed.
Lemma until_close body r : ~ infix c_tag body ->
  consume_until_tail_is c_tag (body ++ c_tag ++ r) = (body ++ c_tag, r).
Proof.
  intros N. rewrite app_assoc. apply consume_until_tail_first; [apply ends_with_app|].
  intros p q H Q. destruct (ends_with c_tag p) eqn:E; [exfalso|auto]. apply ends_with_iff in E as [w ->].
  destruct (exists_last Q) as (q' & x & ->).
  assert (H2 : body ++ lit "</details" = (w ++ c_tag) ++ q').
  { rewrite app_assoc in H. change c_tag with (lit "</details" ++ [c_gt]) in H at 1. rewrite app_assoc in H.
    now apply app_inj_tail in H as [H _]. }
  assert (I : infix (c_lt :: lit "/details>") (body ++ c_lt :: lit "/details")).
  { exists w, q'. change (c_lt :: lit "/details") with (lit "</details"). rewrite H2. now rewrite <- app_assoc. }
  apply infix_tag_split in I as [I|I].
  - apply N. exact I.
  - apply infix_length in I. vm_compute in I. lia.
  - vm_compute. intuition discriminate.
Qed.
Lemma lex_details hd r summary body toks : ~ In c_nl summary -> ~ In c_cr summary ->
  ~ infix (lit "<details>") body -> ~ infix (lit "</details>") body ->
  lexes [] (c_nl :: body) toks ->
  lexed hd (lit "<details>" ++ [c_nl] ++ lit "<summary>" ++ summary ++ lit "</summary>" ++ [c_nl] ++ body
        ++ lit "</details>") (Detail summary toks) r.
Proof.
  intros Ns Nc NO NC [f HL] last. exists f.
  set (z := [c_nl] ++ body ++ lit "</details>" ++ r).
  set (y := lit "<summary>" ++ summary ++ lit "</summary>" ++ z).
  assert (EQ : (lit "<details>" ++ [c_nl] ++ lit "<summary>" ++ summary ++ lit "</summary>" ++ [c_nl] ++ body
        ++ lit "</details>") ++ r = lit "<" ++ lit "details" ++ lit ">" ++ [c_nl] ++ y).
  { unfold y, z. rewrite <- !app_assoc. reflexivity. }
  rewrite EQ. change (lit "<" ++ lit "details" ++ lit ">" ++ [c_nl] ++ y) with (c_lt :: lit "details" ++ lit ">" ++ [c_nl] ++ y) at 1.
  cbn [next_token].
  match goal with |- context [dispatch ?L ?R ?N ?i ?l ?c ?s] =>
    replace (dispatch L R N i l c s) with (lex_side_carrot L N s) by (destruct hd; reflexivity) end.
  assert (G : lex_side_carrot (lex f) f (c_lt :: lit "details" ++ lit ">" ++ [c_nl] ++ y) = Ret (LOk (Detail summary toks) r)).
  2:{ now rewrite G. }
  unfold lex_side_carrot, consume_while, next_if_eq at 1. rewrite ceq_refl.
  destruct (text_take (fun c => negb (ceq c c_gt)) (lit "details") (lit ">" ++ [c_nl] ++ y)) as [-> ->]; [reflexivity|..].
  { right. exists c_gt. eexists. split; reflexivity. }
  change (next_if_eq c_gt (lit ">" ++ [c_nl] ++ y)) with (Some ([c_nl] ++ y)). cbn iota. rewrite str_eqb_refl.
  change (skip_if_eq c_cr ([c_nl] ++ y)) with ([c_nl] ++ y).
  change (next_if_eq c_nl ([c_nl] ++ y)) with (Some y). cbn iota.
  unfold parse_details, consume_while. set (g := fun c => _).
  assert (F : forallb g (lit "<summary>" ++ summary ++ lit "</summary>") = true).
  { rewrite !forallb_app. apply andb_true_iff. split; [reflexivity|].
    apply andb_true_iff. split; [|reflexivity]. apply forallb_forall. intros c I. unfold g.
    apply andb_true_iff. split; apply negb_true_iff, ceq_neq; intros ->; auto. }
  unfold y. rewrite (app_assoc summary), (app_assoc (lit "<summary>")).
  rewrite take_while_app, drop_while_app by exact F.
  change (take_while g z) with (@nil char). change (drop_while g z) with z. rewrite app_nil_r.
  change (skip_if_eq c_cr z) with z.
  rewrite starts_with_app. rewrite app_assoc, ends_with_app. cbn [negb orb].
  rewrite <- app_assoc, strip_prefix_app, strip_suffix_app. cbn [or_empty].
  unfold z. change ([c_nl] ++ body ++ lit "</details>" ++ r) with ((c_nl :: body) ++ lit "</details>" ++ r).
  assert (NB : forall t, infix (c_lt :: t) (c_nl :: body) -> infix (c_lt :: t) body).
  { intros t I. apply infix_cons_inv in I as [I|(b & K & _)]; [exact I | discriminate K]. }
  fold c_tag. rewrite until_close by (intros I; apply NC; now apply NB).
  assert (CO : contains (lit "<details>") ((c_nl :: body) ++ c_tag) = false).
  { destruct (contains _ _) eqn:E; [exfalso|auto]. apply contains_iff in E.
    change (lit "<details>") with (c_lt :: lit "details>") in E.
    change ((c_nl :: body) ++ c_tag) with ((c_nl :: body) ++ c_lt :: lit "/details>") in E.
    apply infix_tag_split in E as [E|E].
    - apply NO. now apply NB.
    - apply contains_iff in E. vm_compute in E. discriminate E.
    - vm_compute. intuition discriminate. }
  rewrite CO. fold c_tag. rewrite strip_suffix_app. cbn [or_empty]. rewrite HL. reflexivity.
Qed.
