(** * MarkdownBlocks: lexing and parsing of the block constructs of Markdown.v. *)
From Coq Require Import Ascii String.
From Verif Require Import Strings StringsFacts Token Iter Lexer Parser LexerFacts LexMono SanitizeFacts
  LinkFacts NoPanic DetailsFacts RawHtml Exec Markdown MarkdownFacts.
Open Scope list_scope.

(** ** Line breaks *)
Lemma nl_in c : ceq c_nl c = true -> In c [c_nl].
Proof. intros I. apply ceq_eq in I. subst. now left. Qed.
Lemma lex_nls hd r n : 2 <= n -> starts_in [c_nl] r = false -> lexed hd (crep n c_nl) Newline r.
Proof.
  intros Hn S. destruct (crep_cons n c_nl ltac:(lia)) as (n' & E & EC). rewrite EC at 1.
  apply lexed_ok. intros L R k last. rewrite app_comm_cons, <- EC.
  assert (G : lex_newlines (crep n c_nl ++ r) = LOk Newline r).
  { unfold lex_newlines, consume_while.
    destruct (run_take [c_nl] (crep n c_nl) r (ceq c_nl)) as [-> ->]; auto using nl_in.
    { apply crep_forall, ceq_refl. }
    rewrite crep_length. now rewrite (proj2 (Nat.leb_le 2 n) Hn). }
  unfold dispatch. rewrite G. destruct hd; reflexivity.
Qed.
Lemma eff_newline b c q : effect Newline b c q LNone false c q LNone (close_p b) [].
Proof.
  eff. destruct b.
  - eexists. split; [apply does_ret; intros R PA; reflexivity|]. done_eff.
  - destruct q; (eexists; split; [apply does_ret; intros R PA; reflexivity|]; done_eff).
Qed.
Lemma eff_list_newline b c q l : l <> LNone -> effect Newline b c q l b c q l [] [].
Proof.
  intros NL. eff. destruct l; [easy|..]; (eexists; split; [apply does_ret; intros R PA; reflexivity|]; done_eff).
Qed.
Lemma eff_list_one_newline b c q l : effect (Plaintext [c_nl]) b c q l b c q l [] [].
Proof.
  eff. eexists; split; [apply does_ret; intros R PA; reflexivity|]; done_eff.
Qed.

(** ** Code *)
Lemma eff_code t b c q :
  effect (Code t) b c q LNone b true q LNone ((if c then [] else lit "<pre><code>") ++ escaped t) [].
Proof.
  eff. eexists. split; [apply does_ret; intros R PA; reflexivity|]. destruct c; done_eff.
Qed.
Lemma tick_in c : ceq c_tick c = true -> In c [c_tick].
Proof. intros I. apply ceq_eq in I. subst. now left. Qed.
Lemma ends_crep x n c : 1 <= n -> ends_with (crep n c) x = true -> ends_with [c] x = true.
Proof.
  intros Hn H. apply ends_with_iff in H as [y ->]. apply ends_with_iff.
  destruct n as [|n]; [lia|]. exists (y ++ crep n c). rewrite <- app_assoc. f_equal.
  clear. induction n as [|n IH]; [reflexivity|]. cbn [crep repeat app]. f_equal. exact IH.
Qed.
Lemma crep_app a b c : crep (a + b) c = crep a c ++ crep b c.
Proof. apply repeat_app. Qed.
Lemma crep_snoc n c : crep (S n) c = crep n c ++ [c].
Proof. rewrite <- Nat.add_1_r. apply crep_app. Qed.
(** A text that ends in fewer than [n] copies of [c] does not end in [n]. *)
Lemma ends_fewer x n k c : k < n -> ends_with [c] x = false -> ends_with (crep n c) (x ++ crep k c) = false.
Proof.
  revert n. induction k as [|k IH]; intros n L E.
  - cbn [crep repeat]. rewrite app_nil_r. destruct (ends_with (crep n c) x) eqn:H; [|auto].
    apply ends_crep in H; [congruence|lia].
  - destruct n as [|n]; [lia|]. rewrite !crep_snoc, app_assoc.
    destruct (ends_with (crep n c ++ [c]) ((x ++ crep k c) ++ [c])) eqn:H; [|auto].
    apply ends_with_iff in H as [y H]. rewrite app_assoc in H. apply app_inj_tail in H as [H _].
    rewrite <- (IH n) by (lia || exact E). symmetry. apply ends_with_iff. now exists y.
Qed.
(** The prefixes of two concatenated texts. *)
Lemma app_eq_app_cases {A} (a b p q : list A) : a ++ b = p ++ q ->
  (exists z, a = p ++ z /\ q = z ++ b) \/ (exists z, p = a ++ z /\ b = z ++ q).
Proof.
  revert p. induction a as [|x a IH]; intros p H.
  - right. exists p. auto.
  - destruct p as [|y p]; [left; exists (x :: a); auto|]. injection H as -> H.
    destruct (IH p H) as [(z & -> & E)|(z & -> & E)]; [left|right]; exists z; auto.
Qed.
Lemma crep_prefix n c z q : crep n c = z ++ q -> exists k, z = crep k c /\ k + length q = n.
Proof.
  intros H. exists (length z). split.
  - assert (F : Forall (eq c) z).
    { apply Forall_forall. intros x I. symmetry. apply (repeat_spec n). fold (crep n c). rewrite H. apply in_or_app. auto. }
    clear H. induction F as [|x z <- F IH]; [auto|]. cbn. now f_equal.
  - apply (f_equal (@length char)) in H. rewrite crep_length, app_length in H. lia.
Qed.
Lemma until_ticks n b r : 1 <= n -> ends_with [c_tick] b = false -> ~ infix (crep n c_tick) b ->
  consume_until_tail_is (crep n c_tick) (b ++ crep n c_tick ++ r) = (b ++ crep n c_tick, r).
Proof.
  intros Hn E N. rewrite app_assoc. apply consume_until_tail_first; [apply ends_with_app|].
  intros p q H Q. apply app_eq_app_cases in H as [(z & -> & _)|(z & -> & H)].
  - destruct (ends_with (crep n c_tick) p) eqn:X; [|auto]. exfalso. apply N.
    apply ends_with_iff in X as [y ->]. exists y, z. now rewrite <- app_assoc.
  - apply crep_prefix in H as (k & -> & L). apply ends_fewer; [|exact E]. destruct q; [easy|]. cbn in L. lia.
Qed.
Lemma strip_prefix_none p s : (forall y, s <> p ++ y) -> strip_prefix p s = None.
Proof. intros H. destruct (strip_prefix p s) as [y|] eqn:E; [|auto]. apply strip_prefix_iff in E. now elim (H y). Qed.
Lemma rev_crep n c : rev (crep n c) = crep n c.
Proof.
  induction n as [|n IH]; [auto|]. rewrite crep_snoc at 1. rewrite rev_app_distr. cbn [rev app]. now rewrite IH.
Qed.
Lemma trim_ticks n b : 1 <= n -> ends_with [c_tick] b = false -> trim_end_matches (crep n c_tick) (b ++ crep n c_tick) = b.
Proof.
  intros Hn E. unfold trim_end_matches. rewrite rev_app_distr, !rev_crep.
  destruct (length (b ++ crep n c_tick)) as [|m] eqn:L; [rewrite app_length, crep_length in L; lia|].
  cbn [drop_prefixes]. rewrite strip_prefix_app.
  assert (G : strip_prefix (crep n c_tick) (rev b) = None).
  { apply strip_prefix_none. intros y H. apply (f_equal (@rev char)) in H. rewrite rev_involutive, rev_app_distr, rev_crep in H.
    assert (X : ends_with (crep n c_tick) b = true) by (apply ends_with_iff; eauto).
    apply ends_crep in X; [congruence|exact Hn]. }
  destruct m as [|m]; cbn [drop_prefixes]; [now rewrite rev_involutive|]. rewrite G. apply rev_involutive.
Qed.
Lemma lex_code hd r s t : code_span s t -> lexed hd s (Code t) r.
Proof.
  intros [n b Hn N3 NE S1 S2 I]. destruct (crep_cons n c_tick Hn) as (n' & E & EC).
  eapply (lexed_okE hd c_tick); [rewrite EC; reflexivity|]. intros L R k last.
  assert (G : lex_backticks ((crep n c_tick ++ b ++ crep n c_tick) ++ r) = LOk (Code (strip_spaces b)) r).
  { unfold lex_backticks, consume_while. rewrite <- !app_assoc.
    destruct (run_take [c_tick] (crep n c_tick) (b ++ crep n c_tick ++ r) (ceq c_tick)) as [-> ->]; auto using tick_in.
    { apply crep_forall, ceq_refl. }
    { destruct b as [|x b]; [easy|]. cbn [app starts_in mem_char existsb]. cbn [starts_with] in S1.
      rewrite andb_true_r in S1. rewrite ceq_sym, S1. reflexivity. }
    rewrite crep_length. apply Nat.eqb_neq in N3. rewrite N3. rewrite until_ticks by auto.
    rewrite ends_with_app. cbn [negb]. rewrite trim_ticks by auto. unfold strip_spaces.
    now destruct (starts_with [c_sp] b && ends_with [c_sp] b). }
  unfold dispatch. rewrite G. destruct hd; reflexivity.
Qed.

(** ** Indented code *)
Lemma until_nl t r : no_nl t -> consume_until_tail_is [c_nl] (t ++ c_nl :: r) = (t ++ [c_nl], r).
Proof.
  intros N. replace (t ++ c_nl :: r) with ((t ++ [c_nl]) ++ r) by (now rewrite <- app_assoc).
  apply consume_until_tail_first; [apply ends_with_app|].
  intros p q H Q. destruct (ends_with [c_nl] p) eqn:E; [exfalso|auto]. apply ends_with_iff in E as [y ->].
  destruct (exists_last Q) as (q' & x & ->). rewrite app_assoc in H. apply app_inj_tail in H as [H _].
  apply N. rewrite H. apply in_or_app. left. apply in_or_app. right. now left.
Qed.
Lemma lex_indented hd r ws t : In ws [[c_tab]; lit "    "; lit "  " ++ [c_tab]] ->
  no_nl t -> ~ In c_hash t -> starts_in blank_chars t = false -> t <> [] ->
  lexed hd (ws ++ t ++ [c_nl]) (Code (t ++ [c_nl])) r.
Proof.
  intros W N NH S1 NE.
  assert (NH2 : contains_char c_hash (t ++ [c_nl]) = false).
  { apply contains_char_false. intros I. apply in_app_iff in I as [I|[I|[]]]; [auto|discriminate I]. }
  assert (FW : forallb is_sp_tab ws = true). { destruct W as [<-|[<-|[<-|[]]]]; reflexivity. }
  assert (G : forall last, lex_tabs_spaces last ((ws ++ t ++ [c_nl]) ++ r) = Ret (LOk (Code (t ++ [c_nl])) r)).
  { intros last. unfold lex_tabs_spaces.
    assert (LN : exists m, length ((ws ++ t ++ [c_nl]) ++ r) = S m).
    { destruct W as [<-|[<-|[<-|[]]]]; eexists; reflexivity. }
    destruct LN as [m ->]. cbn [lex_tabs_spaces_go]. unfold consume_while.
    rewrite <- !app_assoc. change ([c_nl] ++ r) with (c_nl :: r).
    destruct (run_take blank_chars ws (t ++ c_nl :: r) is_sp_tab) as [-> ->]; auto using is_sp_tab_in.
    { rewrite starts_in_app; auto. }
    assert (PK : peek_is c_nl (t ++ c_nl :: r) = false).
    { destruct t as [|x t]; [easy|]. cbn. apply ceq_neq. intros ->. apply N. now left. }
    rewrite PK, andb_false_r. rewrite until_nl by exact N. rewrite NH2, andb_false_r.
    destruct W as [<-|[<-|[<-|[]]]]; reflexivity. }
  destruct W as [<-|[<-|[<-|[]]]].
  - eapply (lexed_okE hd c_tab); [reflexivity|]. now apply disp_tab.
  - eapply (lexed_okE hd c_sp); [reflexivity|]. now apply disp_sp.
  - eapply (lexed_okE hd c_sp); [reflexivity|]. now apply disp_sp.
Qed.

(** ** Fenced code *)
Lemma eff_codeblock t lang b c q : effect (CodeBlock t lang) b c q LNone false c q LNone (close_p b) [].
Proof.
  eff. destruct b.
  - eexists. split; [apply does_ret; intros R PA; reflexivity|]. done_eff.
  - eexists. split; [apply does_ret; intros R PA; reflexivity|]. done_eff.
Qed.
Lemma lex_fence hd r lang t : no_nl lang -> ~ In c_tick lang -> ~ In c_tick t -> starts_in [c_tick] r = false ->
  lexed hd (lit "```" ++ lang ++ [c_nl] ++ t ++ lit "```") (CodeBlock t lang) r.
Proof.
  intros N1 N2 N3 S. eapply (lexed_okE hd c_tick); [reflexivity|]. intros L R k last.
  assert (G : lex_backticks ((lit "```" ++ lang ++ [c_nl] ++ t ++ lit "```") ++ r) = LOk (CodeBlock t lang) r).
  { unfold lex_backticks, consume_while. rewrite <- !app_assoc.
    destruct (run_take [c_tick] (lit "```") (lang ++ [c_nl] ++ t ++ lit "```" ++ r) (ceq c_tick)) as [-> ->]; auto using tick_in.
    { destruct lang as [|x lang]; [reflexivity|]. cbn [app starts_in mem_char existsb]. rewrite orb_false_r.
      apply ceq_neq. intros ->. apply N2. now left. }
    change (length (lit "```") =? 3) with true. cbn iota.
    assert (E : (match next_if_eq c_nl (lang ++ [c_nl] ++ t ++ lit "```" ++ r) with
      | Some r2 => ([], r2)
      | None => (take_while not_nl (lang ++ [c_nl] ++ t ++ lit "```" ++ r),
                 next (drop_while not_nl (lang ++ [c_nl] ++ t ++ lit "```" ++ r)))
      end) = (lang, t ++ lit "```" ++ r)).
    { destruct lang as [|x lang]; [reflexivity|].
      assert (X : next_if_eq c_nl ((x :: lang) ++ [c_nl] ++ t ++ lit "```" ++ r) = None).
      { cbn [app next_if_eq]. assert (ceq x c_nl = false) as ->; [|auto]. apply ceq_neq. intros ->. apply N1. now left. }
      rewrite X. destruct (text_take not_nl (x :: lang) ([c_nl] ++ t ++ lit "```" ++ r)) as [-> ->]; [..|reflexivity].
      { now apply not_in_forall. }
      { right. exists c_nl. eexists. split; reflexivity. } }
    rewrite E.
    destruct (text_take (fun c => negb (ceq c c_tick)) t (lit "```" ++ r)) as [-> ->].
    { now apply not_in_forall. }
    { right. exists c_tick. eexists. split; reflexivity. }
    destruct (run_take [c_tick] (lit "```") r (ceq c_tick)) as [-> ->]; auto using tick_in. }
  unfold dispatch. rewrite G. destruct hd; reflexivity.
Qed.

(** ** Thematic breaks *)
Lemma eff_rule b c q : effect HorizontalRule b c q LNone b c q LNone (lit "<hr />" ++ [c_nl]) [].
Proof. eff. eexists. split; [apply does_ret; intros R PA; reflexivity|]. done_eff. Qed.
Lemma forall_crep n c d : d <> c -> 1 <= n -> forallb (ceq d) (crep n c) = false.
Proof. intros N Hn. destruct n as [|n]; [lia|]. cbn. assert (ceq d c = false) as ->; [|auto]. now apply ceq_neq. Qed.
Lemma lex_rule hd r s : rule_line r s -> lexed hd s HorizontalRule r.
Proof.
  intros [s' I L3 S0 | n Hn S0 | n c Hc Hn S0].
  - destruct s' as [|x s']; [cbn in L3; lia|]. apply lexed_ok.
    apply disp_dash; [apply I; now left|]. intros L. change (x :: s' ++ r) with ((x :: s') ++ r).
    unfold lex_plus_minus, consume_while. fold is_dash.
    destruct (run_take dashes (x :: s') r is_dash) as [-> ->]; auto using is_dash_in, dashes_forall.
    destruct (length (x :: s')) as [|[|[|m]]]; try lia. reflexivity.
  - destruct (crep_cons n c_star Hn) as (n' & E & EC). rewrite EC at 1. apply lexed_ok.
    rewrite app_comm_cons, <- EC. intros L R k last. rewrite (disp_star hd c_star _ (or_introl eq_refl) L R k last). f_equal.
    unfold lex_asterisk_underscore, consume_while.
    destruct r as [|x r]; [discriminate S0|]. cbn in S0. rewrite orb_false_r in S0. apply N.eqb_eq in S0. subst x.
    fold aster. destruct (run_take (c_tab :: star_under) (crep n c_star) (c_nl :: r) aster) as [-> ->]; auto using aster_in.
    { now apply crep_forall. }
    rewrite crep_length.
    replace (if n =? 1 then next_if_eq c_sp (c_nl :: r) else None) with (@None cursor) by (now destruct (n =? 1)).
    rewrite crep_forall by apply ceq_refl. reflexivity.
  - destruct (crep_cons n c ltac:(lia)) as (n' & E & EC). rewrite EC at 1. apply lexed_ok.
    rewrite app_comm_cons, <- EC. intros L R k last. rewrite (disp_star hd c _ Hc L R k last). f_equal.
    unfold lex_asterisk_underscore, consume_while. fold aster.
    destruct (run_take (c_tab :: star_under) (crep n c) r aster) as [-> ->]; auto using aster_in.
    { apply crep_forall. now destruct Hc as [<-|[<-|[]]]. }
    rewrite crep_length. assert (E1 : (n =? 1) = false) by (apply Nat.eqb_neq; lia). rewrite E1.
    destruct (forallb (ceq c_star) (crep n c) && peek_is c_nl r); [reflexivity|].
    destruct n as [|[|[|[|n]]]]; try lia. destruct Hc as [<-|[<-|[]]].
    + assert (X : forallb (ceq c_star) (replace_char c_tab [] (crep (S (S (S (S n)))) c_star)) = true).
      { apply forallb_forall. intros x I. unfold replace_char in I. apply in_flat_map in I as (y & Iy & I).
        apply repeat_spec in Iy. subst y. destruct I as [<-|[]]. reflexivity. }
      now rewrite X.
    + rewrite (crep_forall _ c_under (ceq c_under)) by reflexivity. now rewrite orb_true_r.
Qed.

(** ** Headings *)
Lemma eff_header l t b c q : effect (Header l t None) b c q LNone false c q LNone (close_p b ++ h_tag l t) [].
Proof.
  eff. destruct b.
  - eexists. split; [apply does_ret; intros R PA; reflexivity|]. unfold h_tag. done_eff.
  - eexists. split; [apply does_ret; intros R PA; reflexivity|]. unfold h_tag. done_eff.
Qed.
Lemma not_nl_forall t : no_nl t -> forallb not_nl t = true.
Proof. apply not_in_forall. Qed.
Lemma line_end_take r : line_end r -> r = [] \/ exists c r', r = c :: r' /\ not_nl c = false.
Proof. intros [->|[r' ->]]; [auto|]. right. exists c_nl, r'. auto. Qed.
Lemma line_take t r : no_nl t -> line_end r -> take_while not_nl (t ++ r) = t /\ drop_while not_nl (t ++ r) = r.
Proof. intros N E. apply text_take; [now apply not_nl_forall | now apply line_end_take]. Qed.
Lemma hash_in c : ceq c_hash c = true -> In c [c_hash].
Proof. intros I. apply ceq_eq in I. subst. now left. Qed.
(** A heading line with any separator. *)
Lemma lex_heading_sep REN n sep line rest :
  1 <= n <= 6 -> In sep blank_chars -> no_nl line -> line_end rest ->
  lex_heading REN (crep n c_hash ++ sep :: line ++ rest) =
  match heading_id line with
  | None => Panic
  | Some l =>
      if forallb (ceq c_hash) l then Ret (LOk (Header n [] None) rest)
      else bind (REN (trim_end_by is_sp_tab (heading_trailing l)) [c_hash])
             (fun html => Ret (LOk (Header n (heading_unwrap html) None) rest))
  end.
Proof.
  intros Hn HS Hl Hr. unfold lex_heading, consume_while.
  destruct (run_take [c_hash] (crep n c_hash) (sep :: line ++ rest) (ceq c_hash)) as [-> ->]; auto using hash_in.
  { apply crep_forall, ceq_refl. }
  { destruct HS as [<-|[<-|[]]]; reflexivity. }
  rewrite crep_length. destruct (6 <? n) eqn:E; [apply Nat.ltb_lt in E; lia|].
  assert (HE : heading_sep (sep :: line ++ rest) = Some (line ++ rest)).
  { destruct HS as [<-|[<-|[]]]; reflexivity. }
  rewrite HE. destruct (line_take line rest Hl Hr) as [-> ->]. reflexivity.
Qed.
Lemma heading_id_free line : ~ infix (lit "{#") line \/ ~ In c_rbrace line -> heading_id line = Some line.
Proof.
  intros H. unfold heading_id.
  destruct (contains (lit "{#") line) eqn:E1; [|reflexivity]. cbn [andb].
  destruct (contains_char c_rbrace line) eqn:E2; [|reflexivity]. exfalso.
  apply contains_iff in E1. apply contains_char_iff in E2. tauto.
Qed.
Lemma heading_id_text line l : head_text line l -> heading_id line = Some l.
Proof.
  intros [line0 H|a i N]; [now apply heading_id_free|]. unfold heading_id.
  assert (C1 : contains (lit "{#") (a ++ lit "{#" ++ i ++ lit "}") = true).
  { apply contains_iff. exists a, (i ++ lit "}"). reflexivity. }
  assert (C2 : contains_char c_rbrace (a ++ lit "{#" ++ i ++ lit "}") = true).
  { apply contains_char_iff. rewrite !in_app_iff. right. right. right. now left. }
  rewrite C1, C2. cbn [andb].
  assert (SO : split_once c_lbrace (a ++ lit "{#" ++ i ++ lit "}") = Some (a, lit "#" ++ i ++ lit "}")).
  { apply split_once_some. auto. }
  rewrite SO, strip_prefix_app, strip_prefix_app. apply strip_suffix_app.
Qed.
Lemma trim_end_by_app f t b : forallb f b = true -> trim_end_by f (t ++ b) = trim_end_by f t.
Proof.
  intros F. unfold trim_end_by. rewrite rev_app_distr, drop_while_app; [auto|].
  apply forallb_forall. intros x I. apply in_rev in I. rewrite forallb_forall in F. auto.
Qed.
Lemma trim_end_by_snoc f t x : f x = false -> trim_end_by f (t ++ [x]) = t ++ [x].
Proof.
  intros W. unfold trim_end_by. rewrite rev_app_distr. cbn [rev app drop_while]. rewrite W.
  cbn [rev]. now rewrite rev_involutive.
Qed.
Lemma blanks_forall b : blanks b -> forallb is_sp_tab b = true /\ forallb is_whitespace b = true.
Proof. intros H. split; apply forallb_forall; intros x I; apply H in I as [<-|[<-|[]]]; reflexivity. Qed.
Lemma visible_sp_tab x : is_whitespace x = false -> is_sp_tab x = false.
Proof.
  intros W. unfold is_sp_tab. apply orb_false_iff. split; apply ceq_neq; intros ->; discriminate W.
Qed.
Lemma forall_hash_crep s : forallb (ceq c_hash) s = true -> s = crep (length s) c_hash.
Proof.
  induction s as [|x s IH]; [auto|]. cbn [forallb]. intros H. apply andb_true_iff in H as [H1 H2].
  apply ceq_eq in H1. subst x. cbn. f_equal. auto.
Qed.
Lemma heading_text line t : heading_line line t ->
  trim_end_by is_sp_tab (heading_trailing line) = t /\ forallb (ceq c_hash) line = false.
Proof.
  intros [t' b (t2 & x & E & W) B H1 H2 | t' b y (t2 & x & E & W) F2 Y H1 | t' b n b' (t2 & x & E & W) B Hn F2'].
  - destruct (blanks_forall b B) as [F1 F2]. split.
    + unfold heading_trailing, trim_end. rewrite trim_end_by_app by exact F2.
      rewrite E, trim_end_by_snoc by exact W. rewrite <- E.
      assert (G : trim_end_by is_sp_tab (t' ++ b) = t').
      { rewrite trim_end_by_app by exact F1. rewrite E. apply trim_end_by_snoc. now apply visible_sp_tab. }
      destruct (rsplit_once c_sp t') as [[l r]|] eqn:R; [|exact G].
      destruct (forallb (ceq c_hash) r) eqn:FH; [exfalso|exact G].
      apply rsplit_once_some in R as [R _]. apply forall_hash_crep in FH. rewrite FH in R. eapply H1, R.
    + destruct (forallb (ceq c_hash) (t' ++ b)) eqn:FH; [exfalso|auto]. rewrite forallb_app in FH.
      apply andb_true_iff in FH as [FT FB]. apply H2. exists (length t'). split; [now apply forall_hash_crep|].
      destruct b as [|y b]; [auto|]. cbn [forallb] in FB. apply andb_true_iff in FB as [FB _]. apply ceq_eq in FB. subst y.
      destruct (B c_hash (or_introl eq_refl)) as [K|[K|[]]]; discriminate K.
  - assert (YW : is_whitespace y = true).
    { rewrite forallb_app in F2. apply andb_true_iff in F2 as [_ F2]. cbn [forallb] in F2. now rewrite andb_true_r in F2. }
    split.
    + unfold heading_trailing, trim_end. rewrite trim_end_by_app by exact F2.
      rewrite E, trim_end_by_snoc by exact W. rewrite <- E.
      assert (G : trim_end_by is_sp_tab (t' ++ b ++ [y]) = t' ++ b ++ [y]).
      { rewrite app_assoc. apply trim_end_by_snoc. unfold is_sp_tab. apply orb_false_iff.
        split; apply ceq_neq; intros ->; apply Y; cbn; tauto. }
      destruct (rsplit_once c_sp t') as [[l r]|] eqn:R; [|exact G].
      destruct (forallb (ceq c_hash) r) eqn:FH; [exfalso|exact G].
      apply rsplit_once_some in R as [R _]. apply forall_hash_crep in FH. rewrite FH in R. eapply H1, R.
    + rewrite !forallb_app. cbn [forallb]. rewrite andb_true_r.
      assert (ceq c_hash y = false) as -> by (apply ceq_neq; intros <-; discriminate YW). now rewrite !andb_false_r.
  - destruct (blanks_forall b B) as [F1 F2].
    destruct n as [|n]; [lia|]. split.
    + unfold heading_trailing, trim_end.
      replace (t' ++ b ++ [c_sp] ++ crep (S n) c_hash ++ b') with ((t' ++ b ++ [c_sp] ++ crep (S n) c_hash) ++ b')
        by (now rewrite <- !app_assoc).
      rewrite trim_end_by_app by exact F2'.
      rewrite crep_snoc.
      replace (t' ++ b ++ [c_sp] ++ crep n c_hash ++ [c_hash]) with ((t' ++ b ++ [c_sp] ++ crep n c_hash) ++ [c_hash])
        by (now rewrite <- !app_assoc).
      rewrite trim_end_by_snoc by reflexivity.
      assert (R : rsplit_once c_sp ((t' ++ b ++ [c_sp] ++ crep n c_hash) ++ [c_hash]) = Some (t' ++ b, crep n c_hash ++ [c_hash])).
      { apply rsplit_once_some. split; [now rewrite <- !app_assoc|]. rewrite <- crep_snoc. intros I.
        apply repeat_spec in I. discriminate I. }
      rewrite R. rewrite <- crep_snoc. rewrite crep_forall by apply ceq_refl.
      rewrite trim_end_by_app by exact F1. rewrite E. apply trim_end_by_snoc. now apply visible_sp_tab.
    + rewrite !forallb_app. cbn [forallb]. change (ceq c_hash c_sp) with false.
      now rewrite !andb_false_r.
Qed.
Lemma strip_p h : or_empty (strip_suffix (lit "</p>" ++ [c_nl]) (or_empty (strip_prefix (lit "<p>") (lit "<p>" ++ h ++ lit "</p>" ++ [c_nl])))) = h.
Proof. rewrite strip_prefix_app. cbn [or_empty]. now rewrite strip_suffix_app. Qed.

(** The renderer inside a heading gives [html]. *)
Lemma lex_heading_ok hd n sep line l0 t html r : hd = false -> 1 <= n <= 6 -> In sep blank_chars -> no_nl line ->
  line_end r -> head_text line l0 -> heading_line l0 t -> renders_ig [c_hash] t html ->
  lexed hd (crep n c_hash ++ sep :: line) (Header n (heading_unwrap html) None) r.
Proof.
  intros -> Hn HS Hl Hr HI HT [f HR] last. exists f.
  destruct (crep_cons n c_hash ltac:(lia)) as (n' & E & EC).
  assert (EQ : (crep n c_hash ++ sep :: line) ++ r = c_hash :: crep n' c_hash ++ sep :: line ++ r).
  { rewrite EC, <- app_assoc. reflexivity. }
  rewrite EQ. cbn [next_token ig_of]. rewrite dispatch_hash. rewrite app_comm_cons, <- EC.
  rewrite lex_heading_sep by auto. rewrite (heading_id_text _ _ HI).
  destruct (heading_text _ _ HT) as [-> ->]. rewrite HR. reflexivity.
Qed.
Lemma lex_heading_empty hd n line r : hd = false -> 1 <= n <= 6 ->
  line = [] \/ (exists sep k, In sep blank_chars /\ line = sep :: crep k c_hash) ->
  line_end r -> (line = [] -> r <> []) -> lexed hd (crep n c_hash ++ line) (Header n [] None) r.
Proof.
  intros -> Hn HL Hr NR. destruct (crep_cons n c_hash ltac:(lia)) as (n' & E & EC).
  assert (X : exists s1, crep n c_hash ++ line = c_hash :: s1) by (rewrite EC; eexists; reflexivity).
  destruct X as [s1 X]. eapply (lexed_okE false c_hash); [exact X|]. intros L R k last.
  cbn [ig_of]. rewrite dispatch_hash. destruct HL as [->|(sep & m & HS & ->)].
  - destruct Hr as [->|[r' ->]]; [now elim NR|]. rewrite app_nil_r. unfold lex_heading, consume_while.
    destruct (run_take [c_hash] (crep n c_hash) (c_nl :: r') (ceq c_hash)) as [-> ->]; auto using hash_in.
    { apply crep_forall, ceq_refl. }
    rewrite crep_length. destruct (6 <? n) eqn:E6; [apply Nat.ltb_lt in E6; lia|]. reflexivity.
  - rewrite <- app_assoc. cbn [app].
    assert (NN : no_nl (crep m c_hash)). { intros I. apply repeat_spec in I. discriminate I. }
    rewrite lex_heading_sep by auto. rewrite heading_id_free.
    2:{ right. intros I. apply repeat_spec in I. discriminate I. }
    rewrite crep_forall by apply ceq_refl. reflexivity.
Qed.
Lemma notes_end n ns : exists z, notes_html (n :: ns) = z ++ lit "</div>" ++ [c_nl].
Proof.
  exists (lit "<div class=""footnotes"" role=""doc-endnotes"">" ++ [c_nl; c_tab] ++ lit "<ol>" ++ [c_nl]
         ++ concat (map note_li (n :: ns)) ++ [c_tab] ++ lit "</ol>" ++ [c_nl]).
  unfold notes_html. rewrite <- !app_assoc. reflexivity.
Qed.
Lemma unwrap_code h ns : heading_unwrap (h ++ lit "</code></pre>" ++ notes_html ns) = [].
Proof.
  unfold heading_unwrap.
  assert (N : forall x y, x ++ lit "</p>" ++ [c_nl] <> y ++ lit "</code></pre>" ++ notes_html ns).
  { intros x y H. apply (f_equal (fun s => firstn 3 (rev s))) in H. destruct ns as [|n ns].
    - unfold notes_html in H. rewrite app_nil_r, !rev_app_distr in H. discriminate H.
    - destruct (notes_end n ns) as [z Q]. rewrite Q in H. rewrite !rev_app_distr in H. discriminate H. }
  destruct (strip_prefix (lit "<p>") _) as [y|] eqn:P; cbn [or_empty]; [|reflexivity].
  apply strip_prefix_iff in P.
  destruct (strip_suffix _ y) as [z|] eqn:S; [exfalso|reflexivity].
  apply strip_suffix_iff in S. subst y. apply (N (lit "<p>" ++ z) h). rewrite <- app_assoc. now symmetry.
Qed.
