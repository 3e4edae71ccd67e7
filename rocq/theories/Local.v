(** * Local: what follows a token does not matter to it.

    If a token ends before the end of the text, the lexer finds the same token when the text is
    continued; the continuation must not start with a tab, and the text must end with a line. *)
From Coq Require Import Ascii String.
From Verif Require Import Strings StringsFacts Token Iter Lexer Parser LexerFacts Lead.
Open Scope list_scope.

Definition rest (l : lres) : cursor := match l with LOk _ r => r | LErr _ r => r end.
Definition ext (x : str) (l : lres) : lres :=
  match l with LOk t r => LOk t (r ++ x) | LErr e r => LErr e (r ++ x) end.

(** [r] ends in a newline, or is empty. *)
Definition nl_end (r : str) : Prop := r = [] \/ exists q, r = q ++ [c_nl].
Lemma nl_end_suffix a r : suffix a r -> nl_end r -> nl_end a.
Proof.
  intros [p ->] [E|[q E]].
  - apply app_eq_nil in E as [_ ->]. now left.
  - destruct a as [|y a]; [now left|]. right.
    destruct (exists_last (l := y :: a)) as (b & z & D); [discriminate|]. rewrite D in E |- *.
    rewrite app_assoc in E. apply app_inj_tail in E as [_ ->]. now exists b.
Qed.
Lemma nl_end_In r : nl_end r -> r <> [] -> In c_nl r.
Proof. intros [->|[q ->]] H; [now elim H|]. apply in_or_app. right. now left. Qed.

Section Local.
Variable x : str.

Lemma take_ext f r : drop_while f r <> [] ->
  take_while f (r ++ x) = take_while f r /\ drop_while f (r ++ x) = drop_while f r ++ x.
Proof.
  induction r as [|c r IH]; cbn [drop_while]; [congruence|]. intros H. cbn [app take_while drop_while].
  destruct (f c); [|auto]. destruct (IH H) as [-> ->]. auto.
Qed.
Lemma consume_ext f r a b : consume_while f r = (a, b) -> b <> [] ->
  consume_while f (r ++ x) = (a, b ++ x).
Proof. unfold consume_while. intros [= <- <-] H. destruct (take_ext f r H) as [-> ->]. reflexivity. Qed.
Lemma sub_ext r r' : substring_from (r ++ x) (r' ++ x) = substring_from r r'.
Proof.
  unfold substring_from. rewrite !app_length.
  replace (length r + length x - (length r' + length x)) with (length r - length r') by lia.
  rewrite firstn_app. replace (length r - length r' - length r) with 0 by lia.
  cbn [firstn]. apply app_nil_r.
Qed.
Lemma until_ext tail acc r a b : consume_until_tail_go tail acc r = (a, b) -> b <> [] ->
  consume_until_tail_go tail acc (r ++ x) = (a, b ++ x).
Proof.
  revert acc; induction r as [|c r IH]; intros acc; cbn [consume_until_tail_go app].
  - intros [= <- <-] H. now elim H.
  - destruct (ends_with tail acc); [intros [= <- <-] _; reflexivity|apply IH].
Qed.
Lemma tail_ext tail r a b : consume_until_tail_is tail r = (a, b) -> b <> [] ->
  consume_until_tail_is tail (r ++ x) = (a, b ++ x).
Proof. apply until_ext. Qed.
Lemma split_ext c s : In c s -> split_once c (s ++ x) =
  match split_once c s with Some (a, b) => Some (a, b ++ x) | None => None end.
Proof.
  intros H. destruct (split_once c s) as [[a b]|] eqn:E.
  - apply split_once_sound in E as [E N]. subst s. rewrite <- app_assoc. cbn [app]. now apply split_once_app.
  - apply split_once_none in E. contradiction.
Qed.
Lemma line_ext r : In c_nl r -> split_line (r ++ x) = (fst (split_line r), snd (split_line r) ++ x).
Proof.
  intros H. unfold split_line. rewrite split_ext by exact H.
  destruct (split_once c_nl r) as [[a b]|] eqn:E; [reflexivity|].
  apply split_once_none in E. contradiction.
Qed.

(** Take a consumption apart; nothing may be left over only at the end. *)
Ltac cons_step :=
  match goal with
  | |- context [consume_while ?f ?r] =>
      lazymatch r with _ ++ x => fail | _ =>
      let a := fresh "a" in let b := fresh "b" in let y := fresh "y" in let E := fresh "E" in
      destruct (consume_while f r) as [a [|y b]] eqn:E;
      [|rewrite (consume_ext f r a _ E) by discriminate] end
  | |- context [consume_until_tail_is ?f ?r] =>
      lazymatch r with _ ++ x => fail | _ =>
      let a := fresh "a" in let b := fresh "b" in let y := fresh "y" in let E := fresh "E" in
      destruct (consume_until_tail_is f r) as [a [|y b]] eqn:E;
      [|rewrite (tail_ext f r a _ E) by discriminate] end
  end.

Lemma newlines_ext r : rest (lex_newlines r) <> [] -> lex_newlines (r ++ x) = ext x (lex_newlines r).
Proof.
  unfold lex_newlines. cons_step; destruct (2 <=? length a); cbn; congruence.
Qed.

Lemma sp_ext n last r l : lex_tabs_spaces_go n last r = Some l -> rest l <> [] ->
  forall n', n <= n' -> lex_tabs_spaces_go n' last (r ++ x) = Some (ext x l).
Proof.
  revert r l; induction n as [|n IH]; intros r l; [discriminate|]. intros E H [|n'] L; [lia|].
  revert E. cbn [lex_tabs_spaces_go]. cons_step.
  - destruct (_ && _ && _); [intros [= <-]; now elim H|].
    change (peek_is c_nl []) with false. rewrite andb_false_r. cbv iota.
    change (consume_until_tail_is [c_nl] []) with (@nil char, @nil char). cbv beta iota.
    change (peek_is c_tab [] || peek_is c_sp []) with false. cbv iota.
    repeat match goal with |- (if ?c then _ else _) = _ -> _ => destruct c end; intros [= <-]; now elim H.
  - cbn [app]. destruct (_ && _ && _); [intros [= <-]; reflexivity|]. cbn [peek_is].
    destruct (_ && _); [intros [= <-]; reflexivity|].
    change (y :: b ++ x) with ((y :: b) ++ x). cons_step.
    + destruct (_ && _ && _); [intros [= <-]; now elim H|].
      change (peek_is c_tab [] || peek_is c_sp []) with false. cbv iota.
      repeat match goal with |- (if ?c then _ else _) = _ -> _ => destruct c end; intros [= <-]; now elim H.
    + destruct (_ && _ && _); [intros [= <-]; reflexivity|].
      destruct (_ || _); [intros [= <-]; reflexivity|].
      destruct (str_eqb _ _); [intros [= <-]; reflexivity|]. cbn [app peek_is].
      change (y0 :: b0 ++ x) with ((y0 :: b0) ++ x).
      destruct (_ || _); [|intros [= <-]; cbn [ext]; now rewrite sub_ext].
      destruct (lex_tabs_spaces_go n last (y0 :: b0)) as [l'|] eqn:G; [|discriminate].
      intros D. assert (rest l' = rest l) as Q.
      { destruct l' as [t r'|e r']; [destruct t|]; injection D as <-; reflexivity. }
      rewrite (IH _ _ G) by (congruence || lia).
      destruct l' as [t r'|e r']; [destruct t|]; injection D as <-; cbn [ext]; rewrite ?sub_ext; reflexivity.
Qed.
Lemma tabs_ext last r l : lex_tabs_spaces last r = Ret l -> rest l <> [] ->
  lex_tabs_spaces last (r ++ x) = Ret (ext x l).
Proof.
  unfold lex_tabs_spaces. destruct (lex_tabs_spaces_go (length r) last r) as [l'|] eqn:E; [|discriminate].
  intros [= ->] H. rewrite (sp_ext _ _ _ _ E H); [reflexivity|rewrite app_length; lia].
Qed.
Lemma numbers_ext r l : lex_numbers r = Ret l -> rest l <> [] -> lex_numbers (r ++ x) = Ret (ext x l).
Proof.
  unfold lex_numbers. destruct r as [|c r]; [discriminate|]. cbn [app]. destruct r as [|d r].
  { cbn [next_if_eq]. intros [= <-] H. now elim H. }
  cbn [app next_if_eq]. destruct (ceq d c_dot); [|intros [= <-] H; reflexivity].
  destruct r as [|e r].
  { cbn [next_if_eq]. intros [= <-] H. now elim H. }
  cbn [app next_if_eq]. destruct (ceq e c_sp).
  - cons_step; intros [= <-] H; [now elim H|reflexivity].
  - intros [= <-] H. cbn [ext].
    change (c :: d :: e :: r ++ x) with ((c :: d :: e :: r) ++ x). change (e :: r ++ x) with ((e :: r) ++ x).
    now rewrite sub_ext.
Qed.
Lemma escaped_ext r : rest (lex_escaped_character r) <> [] ->
  lex_escaped_character (r ++ x) = ext x (lex_escaped_character r).
Proof.
  unfold lex_escaped_character. destruct r as [|c r]; [intros H; now elim H|].
  unfold next. cbn [app tl]. destruct r as [|d r]; [intros H; now elim H|]. cbn [app].
  destruct (ceq d c_hash); [|reflexivity]. change (d :: r ++ x) with ((d :: r) ++ x).
  cons_step; [intros H; now elim H|reflexivity].
Qed.
Lemma strong_ext n mk r r1 : rest (lex_strong n mk r r1) <> [] ->
  lex_strong n mk (r ++ x) (r1 ++ x) = ext x (lex_strong n mk r r1).
Proof.
  unfold lex_strong. cons_step.
  { change (consume_while is_star_under []) with (@nil char, @nil char). cbv beta iota.
    destruct (_ =? _); intros H; now elim H. }
  cons_step; [destruct (_ =? _); intros H; now elim H|].
  destruct (_ =? _); [reflexivity|]. intros _. cbn [ext]. now rewrite sub_ext.
Qed.
Lemma next_ext r : next r <> [] -> next (r ++ x) = next r ++ x.
Proof. destruct r; [intros H; now elim H|reflexivity]. Qed.
Lemma asterisk_ext r : rest (lex_asterisk_underscore r) <> [] ->
  lex_asterisk_underscore (r ++ x) = ext x (lex_asterisk_underscore r).
Proof.
  unfold lex_asterisk_underscore. cons_step.
  - cbn [next_if_eq peek_is]. rewrite andb_false_r. unfold lex_strong.
    change (consume_while is_star_under []) with (@nil char, @nil char).
    change (consume_while (fun c => negb (is_star_under c)) []) with (@nil char, @nil char). cbv beta iota.
    replace (if length a =? 1 then None else None) with (@None cursor) by now destruct (_ =? _).
    intros H. exfalso. apply H. clear H.
    destruct (length a) as [|[|[|[|k]]]]; cbn [rest next tl]; repeat match goal with |- context [if ?c then _ else _] => destruct c end; reflexivity.
  - cbn [app next_if_eq peek_is]. change (y :: b ++ x) with ((y :: b) ++ x).
    assert (rest (if forallb (ceq c_star) a && ceq y c_nl then LOk HorizontalRule (y :: b)
      else match length a with
      | 1 => let (s, r2) := consume_while (fun c => negb (is_star_under c)) (y :: b) in LOk (Italic s) (next r2)
      | 2 => lex_strong 2 Bold r (y :: b)
      | 3 => lex_strong 3 BoldItalic r (y :: b)
      | _ => if forallb (ceq c_star) (replace_char c_tab [] a) || forallb (ceq c_under) a
             then LOk HorizontalRule (y :: b) else LErr a (y :: b)
      end) <> [] ->
      (if forallb (ceq c_star) a && ceq y c_nl then LOk HorizontalRule ((y :: b) ++ x)
      else match length a with
      | 1 => let (s, r2) := consume_while (fun c => negb (is_star_under c)) ((y :: b) ++ x) in LOk (Italic s) (next r2)
      | 2 => lex_strong 2 Bold (r ++ x) ((y :: b) ++ x)
      | 3 => lex_strong 3 BoldItalic (r ++ x) ((y :: b) ++ x)
      | _ => if forallb (ceq c_star) (replace_char c_tab [] a) || forallb (ceq c_under) a
             then LOk HorizontalRule ((y :: b) ++ x) else LErr a ((y :: b) ++ x)
      end) =
      ext x (if forallb (ceq c_star) a && ceq y c_nl then LOk HorizontalRule (y :: b)
      else match length a with
      | 1 => let (s, r2) := consume_while (fun c => negb (is_star_under c)) (y :: b) in LOk (Italic s) (next r2)
      | 2 => lex_strong 2 Bold r (y :: b)
      | 3 => lex_strong 3 BoldItalic r (y :: b)
      | _ => if forallb (ceq c_star) (replace_char c_tab [] a) || forallb (ceq c_under) a
             then LOk HorizontalRule (y :: b) else LErr a (y :: b)
      end)) as G.
    { destruct (forallb _ a && _); [reflexivity|].
      destruct (length a) as [|[|[|[|k]]]].
      - destruct (_ || _); reflexivity.
      - cons_step; cbn [rest ext]; [intros H; now elim H|]. intros H. now rewrite next_ext.
      - apply strong_ext.
      - apply strong_ext.
      - destruct (_ || _); reflexivity. }
    destruct (length a =? 1); [|exact G]. destruct (ceq y c_sp); [|exact G]. clear G.
    cons_step; cbn [rest ext]; [intros H; now elim H|]. intros H. now rewrite next_ext.
Qed.
Lemma skip_ext c r : r <> [] -> skip_if_eq c (r ++ x) = skip_if_eq c r ++ x.
Proof. unfold skip_if_eq. destruct r as [|y r]; [congruence|]. intros _. cbn [app next_if_eq]. now destruct (ceq y c). Qed.
Lemma blockquotes_ext r : rest (lex_blockquotes r) <> [] ->
  lex_blockquotes (r ++ x) = ext x (lex_blockquotes r).
Proof.
  unfold lex_blockquotes. cons_step; [intros H; now elim H|]. cbn [app peek_is].
  change (y :: b ++ x) with ((y :: b) ++ x).
  destruct (_ || _); [|reflexivity]. cons_step; [intros H; now elim H|].
  cbn [rest ext]. intros H. now rewrite skip_ext by discriminate.
Qed.

Hypothesis no_tab : forall r, x <> c_tab :: r.

Lemma ahead_ext r : skip_if_eq c_nl r <> [] ->
  ahead_is [c_nl; c_nl; c_tab] (r ++ x) = ahead_is [c_nl; c_nl; c_tab] r.
Proof.
  unfold skip_if_eq, ahead_is. destruct r as [|a r]; [intros H; now elim H|].
  cbn [next_if_eq app starts_with]. destruct (ceq a c_nl) eqn:A; [|rewrite ceq_sym, A; reflexivity].
  intros H. destruct r as [|b r]; [now elim H|]. cbn [app starts_with]. f_equal. f_equal.
  destruct r as [|c r]; [|reflexivity]. cbn [app]. destruct x as [|d x']; [reflexivity|].
  cbn [starts_with]. destruct (ceq c_tab d) eqn:D; [|reflexivity]. apply N.eqb_eq in D. subst d. now elim (no_tab x').
Qed.
Lemma paragraphs_ext n r toks r' : list_paragraphs n r = Some (toks, r') -> skip_if_eq c_nl r' <> [] ->
  forall n', n <= n' -> list_paragraphs n' (r ++ x) = Some (toks, r' ++ x).
Proof.
  revert r toks r'; induction n as [|n IH]; intros r toks r'; [discriminate|]. intros E H [|n'] L; [lia|].
  revert E. cbn [list_paragraphs]. destruct (ahead_is [c_nl; c_nl; c_tab] r) eqn:A.
  - unfold ahead_is in *. apply starts_with_iff in A as [y ->]. cbn [app next tl].
    change (starts_with [c_nl; c_nl; c_tab] (c_nl :: c_nl :: c_tab :: y ++ x)) with true. cbv iota.
    cons_step.
    + destruct n; [discriminate|]. cbn [list_paragraphs ahead_is starts_with]. intros [= <- <-]. now elim H.
    + destruct (list_paragraphs n _) as [[t2 r2]|] eqn:G; [|discriminate]. intros [= <- <-].
      now rewrite (IH _ _ _ G H) by lia.
  - intros [= <- <-]. now rewrite ahead_ext, A.
Qed.

Variable LEX : str -> list char -> res (list token).
Variable REN : str -> list char -> res str.
Variable LOOP : nat.

Lemma heading_ext r l : lex_heading REN r = Ret l -> rest l <> [] -> lex_heading REN (r ++ x) = Ret (ext x l).
Proof.
  unfold lex_heading. cons_step.
  { cbn [heading_sep next_if_eq peek_is]. destruct (6 <? _); intros [= <-] H; now elim H. }
  destruct (6 <? _); [intros [= <-] H; reflexivity|].
  assert (heading_sep ((y :: b) ++ x) = option_map (fun r => r ++ x) (heading_sep (y :: b))) as ->.
  { unfold heading_sep. cbn [app next_if_eq peek_is]. destruct (ceq y c_sp); [reflexivity|].
    destruct (ceq y c_tab); [reflexivity|]. destruct (ceq y c_nl); reflexivity. }
  destruct (heading_sep (y :: b)) as [r2|]; cbn [option_map]; [|intros [= <-] H; reflexivity].
  cons_step.
  - destruct (heading_id a0) as [line|]; [|discriminate].
    destruct (forallb _ _); [intros [= <-] H; now elim H|].
    destruct (REN _ _); cbn [bind]; intros [= <-] H; now elim H.
  - destruct (heading_id a0) as [line|]; [|discriminate].
    destruct (forallb _ _); [intros [= <-] H; reflexivity|].
    destruct (REN _ _); cbn [bind]; intros [= <-] H; reflexivity.
Qed.

Lemma item_ext line toks r4 l : nl_end r4 -> list_item_token LEX line toks r4 = Ret l -> rest l <> [] ->
  list_item_token LEX line toks (r4 ++ x) = Ret (ext x l).
Proof.
  intros N. unfold list_item_token.
  destruct (starts_with _ _); [intros [= <-] H; reflexivity|].
  destruct (_ || _); [intros [= <-] H; reflexivity|].
  destruct r4 as [|y b]; [cbn [peek_line_ahead]; intros [= <-] H; now elim H|].
  unfold peek_line_ahead, consume_line_ahead. cbn [app]. change (y :: b ++ x) with ((y :: b) ++ x).
  rewrite line_ext by now apply nl_end_In.
  destruct (split_line (y :: b)) as [u v]. cbn [fst snd].
  destruct (starts_with _ _); [|destruct (starts_with _ _)];
    try (destruct (LEX _ _); cbn [bind]); intros [= <-] H; reflexivity.
Qed.
Lemma plus_ext r l : nl_end r -> lex_plus_minus LEX r = Ret l -> rest l <> [] ->
  lex_plus_minus LEX (r ++ x) = Ret (ext x l).
Proof.
  intros N. unfold lex_plus_minus.
  destruct (consume_while (fun c => ceq c c_minus || ceq c c_plus) r) as [a b] eqn:E.
  assert (suffix b r) as S1 by (injection E as <- <-; apply suffix_drop_while).
  destruct b as [|y b].
  { destruct (length a) as [|[|[|k]]]; intros [= <-] H; now elim H. }
  rewrite (consume_ext _ _ _ _ E) by discriminate.
  destruct (length a) as [|[|[|k]]]; try (intros [= <-] H; cbn [ext]; rewrite ?sub_ext; reflexivity).
  destruct (consume_while not_nl (y :: b)) as [a0 b0] eqn:E0.
  assert (suffix b0 (y :: b)) as S2 by (apply (f_equal snd) in E0; cbn [snd consume_while] in E0; subst b0; apply suffix_drop_while).
  destruct (list_paragraphs (S (length b0)) b0) as [[more r3]|] eqn:P; [|discriminate].
  intros E4 H.
  assert (skip_if_eq c_nl r3 <> []) as K.
  { intros K. rewrite K in E4. apply H. clear H. revert E4. unfold list_item_token.
    cbn [peek_line_ahead]. destruct (starts_with _ _); [|destruct (_ || _)]; intros [= <-]; reflexivity. }
  assert (b0 <> []) as B0.
  { intros ->. cbn in P. injection P as <- <-. now elim K. }
  rewrite (consume_ext _ _ _ _ E0 B0).
  rewrite (paragraphs_ext _ _ _ _ P K) by (rewrite app_length; lia). rewrite sub_ext.
  assert (r3 <> []) as R3 by (intros ->; now elim K).
  rewrite skip_ext by exact R3. apply item_ext; [|exact E4|exact H].
  eapply nl_end_suffix; [|exact N]. eapply suffix_trans; [apply skip_if_eq_suffix|].
  eapply suffix_trans; [exact (list_paragraphs_suffix _ _ _ _ P)|].
  eapply suffix_trans; [exact S2|exact S1].
Qed.

Lemma tilde_ext r : rest (lex_tilde r) <> [] -> lex_tilde (r ++ x) = ext x (lex_tilde r).
Proof.
  unfold lex_tilde. cons_step.
  { change (consume_while (fun c => negb (ceq c c_tilde)) []) with (@nil char, @nil char).
    change (consume_while (ceq c_tilde) []) with (@nil char, @nil char). cbv beta iota.
    destruct (length a) as [|[|[|k]]]; cbn [length Nat.eqb]; intros H; now elim H. }
  destruct (length a) as [|[|[|k]]]; try reflexivity.
  cons_step.
  { change (consume_while (ceq c_tilde) []) with (@nil char, @nil char). cbv beta iota.
    cbn [length Nat.eqb]. intros H; now elim H. }
  cons_step; [destruct (2 =? _); intros H; now elim H|].
  destruct (2 =? _); [reflexivity|]. cbn [ext]. now rewrite sub_ext.
Qed.
Lemma backticks_ext r : rest (lex_backticks r) <> [] -> lex_backticks (r ++ x) = ext x (lex_backticks r).
Proof.
  unfold lex_backticks. cons_step.
  { intros H. exfalso. apply H. clear H. destruct (length a =? 3).
    - change (consume_while (fun c => negb (ceq c c_tick)) []) with (@nil char, @nil char).
      change (consume_while (ceq c_tick) []) with (@nil char, @nil char). cbn [next_if_eq].
      change (consume_while not_nl []) with (@nil char, @nil char). cbv beta iota. cbn [next tl].
      change (consume_while (fun c => negb (ceq c c_tick)) []) with (@nil char, @nil char). cbv beta iota.
      change (consume_while (ceq c_tick) []) with (@nil char, @nil char). cbv beta iota.
      destruct (_ =? _); reflexivity.
    - change (consume_until_tail_is (crep (length a) c_tick) []) with (@nil char, @nil char). cbv beta iota.
      destruct (negb _); [reflexivity|]. destruct (_ && _); reflexivity. }
  destruct (length a =? 3).
  - destruct (match next_if_eq c_nl (y :: b) with Some r2 => ([], r2)
              | None => let (l, r2) := consume_while not_nl (y :: b) in (l, next r2) end) as [lang r2] eqn:E2.
    destruct r2 as [|z r2].
    { change (consume_while (fun c => negb (ceq c c_tick)) []) with (@nil char, @nil char). cbv beta iota.
      change (consume_while (ceq c_tick) []) with (@nil char, @nil char). cbv beta iota.
      destruct (_ =? _); intros H; now elim H. }
    assert (match next_if_eq c_nl ((y :: b) ++ x) with Some r2 => ([], r2)
              | None => let (l, r2) := consume_while not_nl ((y :: b) ++ x) in (l, next r2) end
            = (lang, (z :: r2) ++ x)) as ->.
    { revert E2. cbn [app next_if_eq]. destruct (ceq y c_nl); [intros [= <- ->]; reflexivity|].
      change (y :: b ++ x) with ((y :: b) ++ x). cons_step; [intros [= _ E3]; discriminate|].
      intros [= <- E3]. cbn [next tl] in *. subst b0. reflexivity. }
    cons_step.
    { change (consume_while (ceq c_tick) []) with (@nil char, @nil char). cbv beta iota.
      destruct (_ =? _); intros H; now elim H. }
    cons_step; [destruct (_ =? _); intros H; now elim H|].
    destruct (_ =? _); [reflexivity|]. cbn [ext]. now rewrite sub_ext.
  - cons_step.
    { destruct (negb _); [intros H; now elim H|]. destruct (_ && _); intros H; now elim H. }
    destruct (negb _); [cbn [ext]; now rewrite sub_ext|]. destruct (_ && _); reflexivity.
Qed.

Definition side (s : cursor + cursor) : cursor := match s with inl r => r | inr r => r end.
Definition sext (s : cursor + cursor) : cursor + cursor :=
  match s with inl r => inl (r ++ x) | inr r => inr (r ++ x) end.
Lemma fn_ext n r s : footnote_lines n r = Some s -> side s <> [] ->
  forall n', n <= n' -> footnote_lines n' (r ++ x) = Some (sext s).
Proof.
  revert r; induction n as [|n IH]; intros r; [discriminate|]. intros E H [|n'] L; [lia|].
  revert E. cbn [footnote_lines]. destruct (drop_while not_nl r) as [|c [|y b]] eqn:D.
  - cbn [next tl peek_is negb andb]. intros [= <-]. now elim H.
  - cbn [next tl peek_is negb andb]. intros [= <-]. now elim H.
  - destruct (take_ext not_nl r) as [_ ->]; [rewrite D; discriminate|]. rewrite D. cbn [app next tl peek_is next_if_eq].
    destruct (negb _ && negb _); [intros [= <-]; reflexivity|].
    destruct (ceq y c_tab); [intros E; apply IH; [exact E|exact H|lia]|].
    change (y :: b ++ x) with ((y :: b) ++ x). cons_step.
    + destruct (_ || _); [|intros [= <-]; now elim H]. destruct n; [discriminate|].
      cbn [footnote_lines drop_while next tl peek_is negb andb]. intros [= <-]. now elim H.
    + destruct (_ || _); [|intros [= <-]; reflexivity]. intros E1. apply IH; [exact E1|exact H|lia].
Qed.
Lemma footnote_ext title r r0 l : lex_footnote title r r0 = Ret l -> rest l <> [] ->
  lex_footnote title (r ++ x) (r0 ++ x) = Ret (ext x l).
Proof.
  unfold lex_footnote. destruct (footnote_lines (S (length r0)) r0) as [s|] eqn:F; [|discriminate].
  intros E H. assert (side s = rest l) as S.
  { destruct s as [r1|r1]; [destruct (existsb _ _)|]; injection E as <-; reflexivity. }
  rewrite (fn_ext _ _ _ F) by (congruence || rewrite app_length; lia).
  destruct s as [r1|r1]; cbn [sext]; [destruct (existsb _ _)|]; injection E as <-; cbn [ext]; now rewrite sub_ext.
Qed.
Lemma dest_ext title r r0 : rest (lex_link_dest title r r0) <> [] ->
  lex_link_dest title (r ++ x) (r0 ++ x) = ext x (lex_link_dest title r r0).
Proof.
  unfold lex_link_dest. cons_step; [intros H; now elim H|]. cbn [app next_if_eq].
  change (y :: b ++ x) with ((y :: b) ++ x).
  destruct (ceq y c_rpar); [destruct (validate_link a); reflexivity|].
  cons_step.
  { unfold skip_while. cbn [drop_while next tl]. destruct (validate_link a); intros H; now elim H. }
  unfold skip_while. intros H.
  assert (next (drop_while not_nl (y0 :: b0)) <> []) as K by (destruct (validate_link a); exact H).
  destruct (take_ext not_nl (y0 :: b0)) as [_ ->]; [intros D; rewrite D in K; now elim K|].
  rewrite next_ext by exact K. destruct (validate_link a); reflexivity.
Qed.
Lemma links_ext r l : lex_links r = Ret l -> rest l <> [] -> lex_links (r ++ x) = Ret (ext x l).
Proof.
  unfold lex_links. destruct r as [|c r]; [intros [= <-] H; now elim H|]. cbn [app next_if_eq].
  change (c :: r ++ x) with ((c :: r) ++ x).
  destruct (ceq c c_lbrk); [|intros [= <-] H; reflexivity].
  cons_step; [intros [= <-] H; now elim H|]. cbn [app next_if_eq].
  destruct (ceq y c_rbrk); [|intros [= <-] H; cbn [ext]; change (y :: b ++ x) with ((y :: b) ++ x);
    change (c :: r ++ x) with ((c :: r) ++ x); now rewrite sub_ext].
  destruct b as [|z b].
  { cbn [next_if_eq]. replace (if starts_with [c_caret] a then None else None) with (@None cursor) by now destruct (starts_with _ _).
    intros [= <-] H. now elim H. }
  cbn [app next_if_eq]. change (z :: b ++ x) with ((z :: b) ++ x). change (c :: r ++ x) with ((c :: r) ++ x).
  destruct (starts_with [c_caret] a), (ceq z c_colon); try apply footnote_ext;
    (destruct (ceq z c_lpar); intros [= <-] H; [now rewrite dest_ext|cbn [ext]; now rewrite sub_ext]).
Qed.
Lemma images_ext r l : lex_images r = Ret l -> rest l <> [] -> lex_images (r ++ x) = Ret (ext x l).
Proof.
  unfold lex_images. destruct r as [|c r]; [intros [= <-] H; now elim H|]. cbn [app next_if_eq].
  change (c :: r ++ x) with ((c :: r) ++ x).
  destruct (ceq c c_bang); [|intros [= <-] H; reflexivity].
  destruct (lex_links r) as [l'| |] eqn:E; cbn [bind]; try discriminate. intros D H.
  assert (rest l' = rest l) as Q by (destruct l' as [[]|]; injection D as <-; reflexivity).
  rewrite (links_ext _ _ E) by congruence. cbn [bind].
  destruct l' as [[]|]; injection D as <-; cbn [ext]; rewrite ?sub_ext; reflexivity.
Qed.

Lemma loop_nil n start text t r : details_loop n start [] text = Some (t, r) -> r = [].
Proof.
  revert text; induction n as [|n IH]; intros text; cbn [details_loop].
  - destruct (_ =? _); [discriminate|]. now intros [= _ <-].
  - destruct (_ =? _); [|now intros [= _ <-]].
    change (consume_until_tail_is (lit "</details>") []) with (@nil char, @nil char). apply IH.
Qed.
Lemma loop_ext n start r text t r' : details_loop n start r text = Some (t, r') -> r' <> [] ->
  details_loop n (start ++ x) (r ++ x) text = Some (t, r' ++ x).
Proof.
  revert r text; induction n as [|n IH]; intros r text; cbn [details_loop].
  - destruct (_ =? _); [discriminate|]. now intros [= <- <-].
  - destruct (_ =? _); [|now intros [= <- <-]]. cons_step.
    + intros E' H. apply loop_nil in E'. contradiction.
    + rewrite sub_ext. apply IH.
Qed.
Lemma details_ext r l : parse_details LEX LOOP r = Ret l -> rest l <> [] ->
  parse_details LEX LOOP (r ++ x) = Ret (ext x l).
Proof.
  unfold parse_details. intros E H. revert E. cons_step.
  { change (skip_if_eq c_cr []) with (@nil char).
    change (consume_until_tail_is (lit "</details>") []) with (@nil char, @nil char). cbv beta iota.
    change (contains (lit "<details>") []) with false. cbv iota.
    destruct (_ || _); [intros [= <-]; now elim H|]. destruct (strip_prefix _ _); [|discriminate].
    destruct (LEX _ _); cbn [bind]; intros [= <-]. now elim H. }
  rewrite skip_ext by discriminate.
  destruct (_ || _); [intros [= <-]; reflexivity|]. destruct (strip_prefix _ _); [|discriminate].
  cons_step.
  - destruct (contains _ _).
    + destruct (details_loop _ _ _ _) as [[t r4]|] eqn:D; [|discriminate]. apply loop_nil in D. subst r4.
      destruct (LEX _ _); cbn [bind]; intros [= <-]. now elim H.
    + destruct (LEX _ _); cbn [bind]; intros [= <-]. now elim H.
  - destruct (contains _ _).
    + destruct (details_loop LOOP (skip_if_eq c_cr (y :: b)) (y0 :: b0) a0) as [[t r4]|] eqn:D; [|discriminate].
      destruct (LEX _ _) eqn:X; cbn [bind]; intros [= <-].
      rewrite (loop_ext _ _ _ _ _ _ D) by exact H. rewrite X. reflexivity.
    + destruct (LEX _ _) eqn:X; cbn [bind]; intros [= <-]. reflexivity.
Qed.
Lemma carrot_ext r l : lex_side_carrot LEX LOOP r = Ret l -> rest l <> [] ->
  lex_side_carrot LEX LOOP (r ++ x) = Ret (ext x l).
Proof.
  unfold lex_side_carrot. destruct r as [|c r]; [intros [= <-] H; now elim H|]. cbn [app next_if_eq].
  change (c :: r ++ x) with ((c :: r) ++ x).
  destruct (ceq c c_lt); [|intros [= <-] H; reflexivity].
  cons_step; [intros [= <-] H; now elim H|]. cbn [app next_if_eq].
  change (c :: r ++ x) with ((c :: r) ++ x).
  destruct (ceq y c_gt); [|intros [= <-] H; reflexivity].
  destruct (str_eqb _ _).
  - intros E1 H. destruct b as [|z b]; [change (skip_if_eq c_cr []) with (@nil char) in E1; injection E1 as <-; now elim H|].
    rewrite skip_ext by discriminate. destruct (skip_if_eq c_cr (z :: b)) as [|w b']; [injection E1 as <-; now elim H|].
    revert E1. cbn [app next_if_eq]. destruct (ceq w c_nl); [|intros [= <-]; reflexivity].
    intros E1. now apply details_ext.
  - destruct a as [|d a]; [intros [= <-] H; reflexivity|].
    destruct (existsb _ _); [intros [= <-] H; cbn [ext]; now rewrite sub_ext|].
    destruct (validate_link _) as [[u [sch|]]|]; intros [= <-] H; cbn [ext]; rewrite ?sub_ext; reflexivity.
Qed.
Lemma lines_ext n r ls r' : table_lines n r = Some (ls, r') -> r' <> [] ->
  forall n', n <= n' -> table_lines n' (r ++ x) = Some (ls, r' ++ x).
Proof.
  revert r ls r'; induction n as [|n IH]; intros r ls r'; [discriminate|]. intros E H [|n'] L; [lia|].
  revert E. cbn [table_lines]. destruct r as [|c r]; [intros [= <- <-]; now elim H|]. cbn [app next_if_eq].
  destruct (ceq c c_pipe); [|intros [= <- <-]; reflexivity].
  cons_step.
  - cbn [next tl]. destruct n; [discriminate|]. cbn [table_lines next_if_eq]. intros [= <- <-]. now elim H.
  - cbn [app next tl]. destruct (table_lines n b) as [[ls1 r1]|] eqn:G; [|discriminate]. intros [= <- <-].
    now rewrite (IH _ _ _ G H) by lia.
Qed.
Lemma pipes_ext r l : lex_pipes LEX r = Ret l -> rest l <> [] -> lex_pipes LEX (r ++ x) = Ret (ext x l).
Proof.
  unfold lex_pipes. destruct (table_lines (S (length r)) r) as [[ls r1]|] eqn:T; [|discriminate].
  intros E H. assert (r1 = rest l) as Q.
  { destruct ls as [|h [|al bd]]; [injection E as <-; reflexivity..|].
    destruct (_ <? _); [injection E as <-; reflexivity|]. destruct (negb _); [injection E as <-; reflexivity|].
    destruct (mapM _ _); cbn [bind] in E; [injection E as <-; reflexivity|discriminate..]. }
  rewrite (lines_ext _ _ _ _ T) by (congruence || rewrite app_length; lia). revert E.
  destruct ls as [|h [|al bd]]; [intros [= <-]; cbn [ext]; rewrite sub_ext; reflexivity..|].
  destruct (_ <? _); [intros [= <-]; cbn [ext]; rewrite sub_ext; reflexivity|].
  destruct (negb _); [intros [= <-]; cbn [ext]; rewrite sub_ext; reflexivity|].
  destruct (mapM _ _); cbn [bind]; [|discriminate..]. intros [= <-]. reflexivity.
Qed.

Lemma dispatch_ext ig last c r l : nl_end (c :: r) -> dispatch LEX REN LOOP ig last c (c :: r) = Ret l -> rest l <> [] ->
  dispatch LEX REN LOOP ig last c ((c :: r) ++ x) = Ret (ext x l).
Proof.
  intros N. unfold dispatch.
  destruct (_ && _); [apply heading_ext|].
  destruct (ceq c c_nl); [intros [= <-] H; now rewrite newlines_ext|].
  destruct (_ || _); [apply tabs_ext|].
  destruct (is_digit c); [apply numbers_ext|].
  destruct (ceq c c_star || ceq c c_under); [intros [= <-] H; now rewrite asterisk_ext|].
  destruct (_ || _); [now apply plus_ext|].
  destruct (ceq c c_gt); [intros [= <-] H; now rewrite blockquotes_ext|].
  destruct (ceq c c_tilde); [intros [= <-] H; now rewrite tilde_ext|].
  destruct (ceq c c_tick); [intros [= <-] H; now rewrite backticks_ext|].
  destruct (ceq c c_lbrk); [apply links_ext|].
  destruct (ceq c c_bang); [apply images_ext|].
  destruct (ceq c c_lt); [apply carrot_ext|].
  destruct (ceq c c_pipe); [apply pipes_ext|].
  destruct (ceq c c_bslash); [intros [= <-] H; now rewrite escaped_ext|].
  intros [= <-] H. reflexivity.
Qed.
Lemma token_ext ig last r t r' : nl_end r -> next_token LEX REN LOOP ig last r = Ret (Some (t, r')) -> r' <> [] ->
  next_token LEX REN LOOP ig last (r ++ x) = Ret (Some (t, r' ++ x)).
Proof.
  intros N. destruct r as [|c r]; [discriminate|]. cbn [next_token app]. change (c :: r ++ x) with ((c :: r) ++ x).
  destruct (dispatch LEX REN LOOP ig last c (c :: r)) as [l| |] eqn:D; cbn [bind]; try discriminate.
  intros E H. assert (rest l = r') as Q by (destruct l; injection E as <- <-; reflexivity).
  rewrite (dispatch_ext _ _ _ _ _ N D) by congruence. cbn [bind].
  destruct l; injection E as <- <-; reflexivity.
Qed.
End Local.
