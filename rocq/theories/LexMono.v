(** * LexMono: more fuel never changes an outcome already reached.

    Hence the outcome of [render] is unique: [renders], [crashes] and
    [runs_forever] exclude each other and [renders] is functional. *)
From Coq Require Import Ascii String.
From Verif Require Import Strings StringsFacts Token Iter Lexer Parser LexerFacts.
Open Scope list_scope.

(** [m] has not finished, or [m'] has the same outcome. *)
Definition le_res {A} (m m' : res A) : Prop := m = Hang \/ m = m'.

Lemma le_refl {A} (m : res A) : le_res m m.
Proof. now right. Qed.
Lemma le_trans {A} (a b c : res A) : le_res a b -> le_res b c -> le_res a c.
Proof. intros [->| ->] [->| ->]; try (now left); now right. Qed.
Lemma le_bind {A B} (m m' : res A) (k k' : A -> res B) :
  le_res m m' -> (forall a, le_res (k a) (k' a)) -> le_res (bind m k) (bind m' k').
Proof.
  intros [->| ->] H; [now left|]. destruct m' as [a| |]; cbn; [apply H | now right | now left].
Qed.
Lemma le_mapM {A B} (f f' : A -> res B) l :
  (forall a, le_res (f a) (f' a)) -> le_res (mapM f l) (mapM f' l).
Proof.
  intros H. induction l as [|x l IH]; cbn; [apply le_refl|].
  apply le_bind; [apply H|]. intros y. apply le_bind; [exact IH|]. intros. apply le_refl.
Qed.

Ltac le := repeat first
  [ apply le_refl | exact (fun a => le_refl _)
  | apply le_bind; [|intros ?] | apply le_mapM; intros ?
  | match goal with H : forall x, le_res _ _ |- _ => apply H end
  | match goal with H : forall x y, le_res _ _ |- _ => apply H end ].

Section Mono.
Variables (LEX LEX' : str -> list char -> res (list token)).
Variables (REN REN' : str -> list char -> res str).
Variables (L L' : nat).
Hypothesis HLEX : forall s ig, le_res (LEX s ig) (LEX' s ig).
Hypothesis HREN : forall s ig, le_res (REN s ig) (REN' s ig).
Hypothesis HL : L <= L'.

Lemma details_loop_mono n n' start r text x :
  n <= n' -> details_loop n start r text = Some x -> details_loop n' start r text = Some x.
Proof.
  revert n' r text; induction n as [|n IH]; intros n' r text H.
  - cbn [details_loop]. destruct (opens text =? closes text) eqn:E; [easy|].
    destruct n'; cbn [details_loop]; now rewrite E.
  - destruct n' as [|n']; [lia|]. cbn [details_loop].
    destruct (opens text =? closes text); [|auto].
    destruct (consume_until_tail_is _ r). apply IH. lia.
Qed.

Lemma lex_heading_mono r : le_res (lex_heading REN r) (lex_heading REN' r).
Proof.
  unfold lex_heading, consume_while. destruct (_ <? _); [apply le_refl|].
  destruct (heading_sep _); [|apply le_refl]. destruct (heading_id _); [|apply le_refl].
  destruct (forallb _ _); [apply le_refl|]. le.
Qed.
Lemma list_item_mono line toks r : le_res (list_item_token LEX line toks r) (list_item_token LEX' line toks r).
Proof.
  unfold list_item_token.
  destruct (starts_with _ line); [apply le_refl|].
  destruct (_ || _); [apply le_refl|].
  destruct (peek_line_ahead r); [|apply le_refl].
  destruct (starts_with _ s); [destruct (consume_line_ahead r); le|].
  destruct (starts_with _ s); [destruct (consume_line_ahead r); le|]. le.
Qed.
Lemma lex_plus_minus_mono r : le_res (lex_plus_minus LEX r) (lex_plus_minus LEX' r).
Proof.
  unfold lex_plus_minus, consume_while.
  destruct (length _) as [|[|[|k]]]; try apply le_refl.
  destruct (list_paragraphs _ _) as [[m r3]|]; [|apply le_refl]. apply list_item_mono.
Qed.
Lemma parse_details_mono r : le_res (parse_details LEX L r) (parse_details LEX' L' r).
Proof.
  unfold parse_details, consume_while. destruct (_ || _); [apply le_refl|].
  destruct (strip_prefix _ _); [|apply le_refl].
  destruct (consume_until_tail_is _ _) as [t0 r3]. destruct (contains _ t0); [|le].
  destruct (details_loop L _ _ _) as [[t r4]|] eqn:E; [|now left].
  rewrite (details_loop_mono L L' _ _ _ _ HL E). le.
Qed.
Lemma lex_side_carrot_mono r : le_res (lex_side_carrot LEX L r) (lex_side_carrot LEX' L' r).
Proof.
  unfold lex_side_carrot, consume_while. destruct (next_if_eq _ r); [|apply le_refl].
  destruct (next_if_eq _ _); [|apply le_refl]. destruct (str_eqb _ _); [|apply le_refl].
  destruct (next_if_eq _ _); [apply parse_details_mono | apply le_refl].
Qed.
Lemma lex_pipes_mono r : le_res (lex_pipes LEX r) (lex_pipes LEX' r).
Proof.
  unfold lex_pipes, lex_row. destruct (table_lines _ _) as [[[|h [|a b]] r1]|]; try apply le_refl.
  destruct (_ <? _); [apply le_refl|]. destruct (negb _); [apply le_refl|]. le.
Qed.
Lemma dispatch_mono ig last c r : le_res (dispatch LEX REN L ig last c r) (dispatch LEX' REN' L' ig last c r).
Proof.
  unfold dispatch.
  destruct (_ && _); [apply lex_heading_mono|].
  destruct (ceq c c_nl); [apply le_refl|].
  destruct (_ || _); [apply le_refl|].
  destruct (is_digit c); [apply le_refl|].
  destruct (ceq c c_star || _); [apply le_refl|].
  destruct (ceq c c_minus || _); [apply lex_plus_minus_mono|].
  destruct (ceq c c_gt); [apply le_refl|].
  destruct (ceq c c_tilde); [apply le_refl|].
  destruct (ceq c c_tick); [apply le_refl|].
  destruct (ceq c c_lbrk); [apply le_refl|].
  destruct (ceq c c_bang); [apply le_refl|].
  destruct (ceq c c_lt); [apply lex_side_carrot_mono|].
  destruct (ceq c c_pipe); [apply lex_pipes_mono|].
  destruct (ceq c c_bslash); apply le_refl.
Qed.
Lemma next_token_mono ig last r : le_res (next_token LEX REN L ig last r) (next_token LEX' REN' L' ig last r).
Proof.
  destruct r; cbn [next_token]; [apply le_refl|].
  apply le_bind; [apply dispatch_mono|]. intros; apply le_refl.
Qed.
Lemma lex_loop_mono n ig last r :
  le_res (lex_loop LEX REN L n ig last r) (lex_loop LEX' REN' L' n ig last r).
Proof.
  revert last r; induction n as [|n IH]; intros last r; cbn [lex_loop]; [now left|].
  apply le_bind; [apply next_token_mono|]. intros [[t r']|]; [|apply le_refl].
  apply le_bind; [apply IH|]. intros; apply le_refl.
Qed.
End Mono.

Section MonoParse.
Variables (R R' : str -> res str) (PA PA' : list token -> res str).
Hypothesis HR : forall s, le_res (R s) (R' s).
Hypothesis HP : forall t, le_res (PA t) (PA' t).

Lemma list_child_mono t : le_res (list_child R t) (list_child R' t).
Proof. destruct t; cbn [list_child]; try apply le_refl. destruct (starts_with _ _); le. Qed.
Lemma cell_token_mono e t : le_res (cell_token PA e t) (cell_token PA' e t).
Proof. destruct t; cbn [cell_token]; try apply le_refl; apply HP. Qed.
Lemma table_html_mono h rows : le_res (table_html PA h rows) (table_html PA' h rows).
Proof.
  unfold table_html, row_html, cell_html.
  apply le_bind; [|intros; apply le_refl]. apply le_mapM; intros row.
  apply le_bind; [|intros; apply le_refl]. apply le_mapM; intros e.
  apply le_bind; [|intros; apply le_refl]. apply le_mapM; intros t. apply cell_token_mono.
Qed.
Lemma body_mono t p : le_res (body R PA t p) (body R' PA' t p).
Proof.
  destruct t; cbn [body]; try apply le_refl.
  - apply le_bind; [|intros; apply le_refl]. apply le_mapM. intros; apply list_child_mono.
  - destruct (is_empty t); le.
  - le.
  - destruct (row0_len rows); [|apply le_refl]. destruct (negb _); [apply le_refl|].
    apply le_bind; [apply table_html_mono|]. intros; apply le_refl.
Qed.
Lemma parse_loop_mono ts p : le_res (parse_loop R PA ts p) (parse_loop R' PA' ts p).
Proof.
  revert p; induction ts as [|t ts IH]; intros p; cbn [parse_loop]; [apply le_refl|].
  apply le_bind; [apply body_mono|]. exact IH.
Qed.
Lemma parse_body_mono ts : le_res (parse_body R PA ts) (parse_body R' PA' ts).
Proof. unfold parse_body. apply le_bind; [apply parse_loop_mono|]. intros; apply le_refl. Qed.
End MonoParse.

Lemma lex_parse_mono f : forall f', f <= f' ->
  (forall s ig, le_res (lex f s ig) (lex f' s ig)) /\
  (forall toks, le_res (parse f toks) (parse f' toks)).
Proof.
  induction f as [|f IH]; intros f' H; [split; intros; now left|].
  destruct f' as [|f']; [lia|]. destruct (IH f' ltac:(lia)) as [HL HP].
  split; intros; cbn [lex parse].
  - apply lex_loop_mono; [exact HL | | lia]. intros. apply le_bind; [apply HL | exact HP].
  - apply parse_body_mono; [|exact HP]. intros. apply le_bind; [apply HL | exact HP].
Qed.
Lemma lex_mono f f' s ig : f <= f' -> le_res (lex f s ig) (lex f' s ig).
Proof. intros H. now apply lex_parse_mono. Qed.
Lemma parse_mono f f' toks : f <= f' -> le_res (parse f toks) (parse f' toks).
Proof. intros H. now apply lex_parse_mono. Qed.
Lemma render_ignore_mono f f' s ig : f <= f' -> le_res (render_ignore f s ig) (render_ignore f' s ig).
Proof.
  intros H. unfold render_ignore. apply le_bind; [now apply lex_mono|].
  intros. now apply parse_mono.
Qed.
Lemma render_mono f f' s : f <= f' -> le_res (render f s) (render f' s).
Proof. apply render_ignore_mono. Qed.

Lemma le_res_ret {A} (m m' : res A) a : le_res m m' -> m = Ret a -> m' = Ret a.
Proof. intros [->| ->]; congruence. Qed.
Lemma le_res_panic {A} (m m' : res A) : le_res m m' -> m = Panic -> m' = Panic.
Proof. intros [->| ->]; congruence. Qed.

Lemma renders_unique s a b : renders s a -> renders s b -> a = b.
Proof.
  intros [f H] [g K].
  apply (le_res_ret _ _ _ (render_mono f (f + g) s ltac:(lia))) in H.
  apply (le_res_ret _ _ _ (render_mono g (f + g) s ltac:(lia))) in K. congruence.
Qed.
Lemma renders_not_crashes s a : renders s a -> ~ crashes s.
Proof.
  intros [f H] [g K].
  apply (le_res_ret _ _ _ (render_mono f (f + g) s ltac:(lia))) in H.
  apply (le_res_panic _ _ (render_mono g (f + g) s ltac:(lia))) in K. congruence.
Qed.
Lemma renders_not_forever s a : renders s a -> ~ runs_forever s.
Proof. intros [f H] K. rewrite K in H. discriminate. Qed.
Lemma crashes_not_forever s : crashes s -> ~ runs_forever s.
Proof. intros [f H] K. rewrite K in H. discriminate. Qed.
