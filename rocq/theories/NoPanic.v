(** * NoPanic: the only panic of the renderer is the custom heading id branch. *)
From Coq Require Import Ascii String.
From Verif Require Import Strings StringsFacts Token Iter Lexer Parser LexerFacts LexMono Master SpecRobust.
Open Scope list_scope.

Lemma bind_np {A B} (m : res A) (k : A -> res B) :
  m <> Panic -> (forall a, m = Ret a -> k a <> Panic) -> bind m k <> Panic.
Proof. intros H K. destruct m; cbn; [now apply K | easy | easy]. Qed.
Lemma mapM_np {A B} (f : A -> res B) l : (forall x, In x l -> f x <> Panic) -> mapM f l <> Panic.
Proof.
  induction l as [|x l IH]; cbn; intros H; [easy|].
  apply bind_np; [apply H; now left|]. intros y _. apply bind_np; [|easy].
  apply IH. intros; apply H; now right.
Qed.

Section NoPanic.
Variable OK : str -> Prop.
Hypothesis X : texts OK.
Hypothesis HID : forall sep l, is_sp_tab sep = true -> ~ In c_nl l ->
  OK (c_hash :: sep :: l) -> heading_id l <> None.
Let PT : str -> Prop := fun _ => True.
Local Notation tok := (tok_ok OK PT).

Lemma OKi a s : infix a s -> OK s -> OK a.
Proof. apply X. Qed.
Lemma OKs r a r' : OK r -> suffix r' r -> infix a r' -> OK a.
Proof. apply OK_sub. apply X. Qed.

Section Lex.
Variable LEX : str -> list char -> res (list token).
Variable RENDER : str -> list char -> res str.
Variable LOOP : nat.
Hypothesis LEX_np : forall s ig, OK s -> LEX s ig <> Panic.
Hypothesis RENDER_np : forall s ig, OK s -> RENDER s ig <> Panic.

Lemma heading_sep_cases r r2 : heading_sep r = Some r2 ->
  (exists sep, is_sp_tab sep = true /\ r = sep :: r2) \/ take_while not_nl r2 = [].
Proof.
  unfold heading_sep. destruct (next_if_eq c_sp r) as [a|] eqn:E1.
  { apply next_if_eq_some in E1 as ->. injection 1 as <-. left. now exists c_sp. }
  destruct (next_if_eq c_tab r) as [a|] eqn:E2.
  { apply next_if_eq_some in E2 as ->. injection 1 as <-. left. now exists c_tab. }
  destruct (peek_is c_nl r) eqn:E3; [|easy]. apply peek_is_true in E3 as [q ->].
  injection 1 as <-. now right.
Qed.
Lemma hashes_end (r : str) : exists a, take_while (ceq c_hash) (c_hash :: r) = a ++ [c_hash].
Proof.
  assert (F := take_while_forall (ceq c_hash) (c_hash :: r)).
  destruct (exists_last (l := take_while (ceq c_hash) (c_hash :: r))) as (a & x & E); [easy|].
  exists a. rewrite E in *. rewrite forallb_app in F. apply andb_true_iff in F as [_ F].
  cbn [forallb] in F. rewrite andb_true_r in F. apply ceq_eq in F. now subst.
Qed.
Lemma lex_heading_np r0 : OK (c_hash :: r0) -> lex_heading RENDER (c_hash :: r0) <> Panic.
Proof.
  set (r := c_hash :: r0).
  intros H. unfold lex_heading, consume_while. destruct (_ <? _); [easy|].
  destruct (heading_sep _) as [r2|] eqn:E; [|easy]. pose proof (heading_sep_cases _ _ E) as HC.
  apply heading_sep_suffix in E.
  assert (S : suffix r2 r) by suf.
  assert (OL : OK (take_while not_nl r2)).
  { apply (OKs r _ r2 H S). apply infix_take_while. }
  destruct (heading_id _) as [line|] eqn:EI.
  2:{ exfalso. destruct HC as [(sep & Hs & HC)|HC]; [|rewrite HC in EI; discriminate].
      revert EI. apply (HID sep); [exact Hs| |].
      - intros I. pose proof (take_while_forall not_nl r2) as F.
        apply (proj1 (forallb_forall _ _) F) in I. discriminate.
      - apply (OKi _ r); [|auto]. destruct (hashes_end r0) as [a EA]. fold r in EA.
        exists a, (drop_while not_nl r2).
        rewrite <- (take_drop (ceq c_hash) r), EA, HC, <- app_assoc. cbn [app].
        now rewrite take_drop. }
  destruct (forallb _ _); [easy|]. apply bind_np; [|easy]. apply RENDER_np.
  apply heading_id_infix in EI. eapply OKi; [|exact OL].
  eapply infix_trans; [apply infix_trim_end_by|].
  eapply infix_trans; [apply heading_trailing_infix|]. exact EI.
Qed.
Lemma lex_tabs_spaces_np last r : lex_tabs_spaces last r <> Panic.
Proof. unfold lex_tabs_spaces. destruct (lex_tabs_spaces_go _ _ _); easy. Qed.
Lemma lex_numbers_np c r : lex_numbers (c :: r) <> Panic.
Proof.
  cbn [lex_numbers]. destruct (next_if_eq _ r); [|easy].
  destruct (next_if_eq _ _); easy.
Qed.
Lemma list_item_np line toks r : OK r -> list_item_token LEX line toks r <> Panic.
Proof.
  intros H. unfold list_item_token. destruct (starts_with _ line); [easy|].
  destruct (_ || _); [easy|]. destruct (peek_line_ahead r); [|easy].
  unfold consume_line_ahead. destruct (split_line r) as [sub r5] eqn:E. apply split_line_app in E.
  assert (OS : OK sub). { apply (OKi _ r); [|auto]. rewrite E. now exists [], r5. }
  destruct (starts_with _ s). { apply bind_np; [|easy]. auto. }
  destruct (starts_with _ s). { apply bind_np; [|easy]. apply LEX_np. eapply OKi; [apply infix_skipn | exact OS]. }
  easy.
Qed.
Lemma lex_plus_minus_np r : OK r -> lex_plus_minus LEX r <> Panic.
Proof.
  intros H. unfold lex_plus_minus, consume_while.
  destruct (length _) as [|[|[|k]]]; try easy.
  destruct (list_paragraphs _ _) as [[m r3]|] eqn:E; [|easy].
  apply list_item_np. set (r2 := drop_while not_nl _) in E.
  assert (S2 : suffix r2 r) by (subst r2; suf).
  apply list_paragraphs_suffix in E as S3.
  apply (OKs r _ (skip_if_eq c_nl r3) H); [|apply infix_refl].
  apply suffix_trans with r3; [apply skip_if_eq_suffix|]. eapply suffix_trans; eauto.
Qed.
Lemma lex_footnote_np t r r0 : lex_footnote t r r0 <> Panic.
Proof. unfold lex_footnote. destruct (footnote_lines _ _) as [[|]|]; try easy. destruct (existsb _ _); easy. Qed.
Lemma lex_links_np r : lex_links r <> Panic.
Proof.
  unfold lex_links, consume_while. destruct (next_if_eq _ r); [|easy].
  destruct (next_if_eq _ _); [|easy]. destruct (if starts_with _ _ then _ else _); [apply lex_footnote_np|].
  destruct (next_if_eq _ _); easy.
Qed.
Lemma lex_images_np r : lex_images r <> Panic.
Proof.
  unfold lex_images. destruct (next_if_eq _ r); [|easy]. apply bind_np; [apply lex_links_np|].
  intros [[]|]; easy.
Qed.
Lemma parse_details_np r : OK r -> parse_details LEX LOOP r <> Panic.
Proof.
  intros H. unfold parse_details, consume_while.
  set (f := fun c : char => _). set (sm := take_while f r). set (r2 := skip_if_eq c_cr _).
  assert (S2 : suffix r2 r) by (subst r2; suf).
  destruct (starts_with _ sm) eqn:E1; cbn [negb orb]; [|easy].
  destruct (ends_with _ sm); cbn [negb]; [|easy].
  apply starts_with_iff in E1 as [y E1]. rewrite E1, strip_prefix_app.
  destruct (consume_until_tail_is _ r2) as [t0 r3] eqn:ET. apply consume_until_tail_app in ET.
  assert (OT : OK t0). { apply (OKs r _ r2 H S2). rewrite ET. now exists [], r3. }
  destruct (if contains _ t0 then _ else _) as [[text r4]|] eqn:EL; [|easy].
  apply bind_np; [|easy]. apply LEX_np.
  eapply OKi; [apply infix_or_empty_suffix|]. destruct (contains _ t0).
  - apply details_loop_suffix in EL as [_ [->|I]]; [auto|]. now apply (OKs r _ r2).
  - now injection EL as <- _.
Qed.
Lemma lex_side_carrot_np r : OK r -> lex_side_carrot LEX LOOP r <> Panic.
Proof.
  intros H. unfold lex_side_carrot, consume_while.
  destruct (next_if_eq _ r) as [r1|] eqn:E1; [|easy]. apply next_if_eq_some in E1.
  destruct (next_if_eq _ _) as [r3|] eqn:E3; [|easy]. apply next_if_eq_some in E3.
  destruct (str_eqb _ _).
  - destruct (next_if_eq _ _) as [r5|] eqn:E5; [|easy]. apply next_if_eq_some in E5.
    apply parse_details_np. apply (OKs r _ r5 H); [|apply infix_refl]. suf.
  - destruct (take_while _ _); [easy|]. destruct (existsb _ _); [easy|].
    destruct (validate_link _) as [[u [|]]|]; easy.
Qed.
Lemma lex_pipes_np r : OK r -> lex_pipes LEX r <> Panic.
Proof.
  intros H. unfold lex_pipes. destruct (table_lines _ _) as [[lines r1]|] eqn:E; [|easy].
  apply table_lines_ok in E as (_ & F). rewrite Forall_forall in F.
  destruct lines as [|h [|a b]]; try easy. destruct (_ <? _); [easy|]. destruct (negb _); [easy|].
  apply bind_np; [|easy]. apply mapM_np. intros l I. apply bind_np; [|easy].
  unfold lex_row. apply mapM_np. intros e Ie. apply bind_np; [|easy]. apply LEX_np.
  apply cells_infix in Ie. destruct (F l ltac:(now do 2 right)) as (q & Sq & Iq).
  apply (OKs r _ q H); [now apply ssuffix_suffix|]. eapply infix_trans; eauto.
Qed.
Lemma dispatch_np ig last c r : OK (c :: r) -> dispatch LEX RENDER LOOP ig last c (c :: r) <> Panic.
Proof.
  intros H. unfold dispatch.
  destruct (ceq c c_hash && _) eqn:E1.
  { apply andb_true_iff in E1 as [E1 _]. apply ceq_eq in E1 as ->. now apply lex_heading_np. }
  destruct (ceq c c_nl); [easy|].
  destruct (_ || _); [apply lex_tabs_spaces_np|].
  destruct (is_digit c); [apply lex_numbers_np|].
  destruct (ceq c c_star || _); [easy|].
  destruct (ceq c c_minus || _); [now apply lex_plus_minus_np|].
  destruct (ceq c c_gt); [easy|].
  destruct (ceq c c_tilde); [easy|].
  destruct (ceq c c_tick); [easy|].
  destruct (ceq c c_lbrk); [apply lex_links_np|].
  destruct (ceq c c_bang); [apply lex_images_np|].
  destruct (ceq c c_lt); [now apply lex_side_carrot_np|].
  destruct (ceq c c_pipe); [now apply lex_pipes_np|].
  destruct (ceq c c_bslash); easy.
Qed.
Lemma lex_loop_np n ig last r : OK r -> lex_loop LEX RENDER LOOP n ig last r <> Panic.
Proof.
  revert last r; induction n as [|n IH]; intros last r H; [easy|]. cbn [lex_loop].
  apply bind_np.
  - destruct r as [|c r]; [easy|]. cbn [next_token]. apply bind_np; [now apply dispatch_np|].
    intros [|]; easy.
  - intros [[t r']|] E; [|easy]. apply bind_np; [|easy]. apply IH.
    apply next_token_progress in E.
    apply (OKs r _ r' H); [now apply ssuffix_suffix | apply infix_refl].
Qed.
End Lex.

Section Parse.
Variable RENDER : str -> res str.
Variable PARSE : list token -> res str.
Hypothesis HR : forall s, OK s -> RENDER s <> Panic.
Hypothesis HP : forall ts, Forall tok ts -> PARSE ts <> Panic.

Lemma body_np t p : tok t -> body RENDER PARSE t p <> Panic.
Proof.
  intros [x H]. inversion H; subst; cbn [body]; try easy.
  - apply bind_np; [|easy]. apply mapM_np. intros x0 I.
    match goal with F : Forall _ toks |- _ => rewrite Forall_forall in F; specialize (F _ I); rename F into FC end. destruct x0 as [tx| | | | | | | | | | | | | | | | | | | | |]; cbn [list_child]; try easy.
    inversion FC as [? FD]; inversion FD; subst. destruct (starts_with _ tx); (apply bind_np; [|easy]); apply HR;
      (eapply OKi; [|eassumption]).
    + eapply infix_trans; [apply infix_trim_start_by | apply infix_skipn].
    + apply infix_trim_start_by.
  - destruct (is_empty t0); [easy|]. apply bind_np; [|easy]. apply HR.
    apply (x_sanitize _ X). eapply OKi; [apply infix_trim_start_by | eassumption].
  - apply bind_np; [|easy]. now apply HP.
  - destruct rows as [|row rows]; [easy|]. cbn [row0_len]. destruct (negb _); [easy|].
    apply bind_np; [|easy]. unfold table_html. apply bind_np; [|easy].
    apply mapM_np. intros rw I. rewrite Forall_forall in H3. specialize (H3 _ I).
    unfold row_html. apply bind_np; [|easy]. apply mapM_np. intros e Ie.
    rewrite Forall_forall in H3. specialize (H3 _ Ie). unfold cell_html.
    apply bind_np; [|easy]. apply mapM_np. intros x Ix.
    destruct x; cbn [cell_token]; try easy; now apply HP.
Qed.
Lemma parse_body_np ts : Forall tok ts -> parse_body RENDER PARSE ts <> Panic.
Proof.
  intros F. unfold parse_body. apply bind_np; [|easy]. generalize pinit.
  induction F as [|t ts HT F IH]; intros p; cbn [parse_loop]; [easy|].
  apply bind_np; [now apply body_np|]. intros q _. apply IH.
Qed.
End Parse.

Lemma templates_true : templates OK PT.
Proof. split; unfold PT; auto. apply Forall_forall. auto. Qed.

Lemma lex_parse_np f :
  (forall s ig, OK s -> lex f s ig <> Panic) /\
  (forall ts, Forall tok ts -> parse f ts <> Panic).
Proof.
  assert (LO : forall f s ig ts, OK s -> lex f s ig = Ret ts -> Forall tok ts).
  { intros. eapply lex_ok; eauto. apply templates_true. }
  induction f as [|f [IHL IHP]]; [split; easy|]. split; cbn [lex parse].
  - intros s ig H. apply lex_loop_np; auto.
    intros s' ig' H'. apply bind_np; [auto|]. intros ts E. apply IHP. eapply LO; eauto.
  - intros ts F. apply parse_body_np; auto.
    intros s' H'. apply bind_np; [auto|]. intros ts' E. apply IHP. eapply LO; eauto.
Qed.
Lemma never_crashes s : OK s -> ~ crashes s.
Proof.
  intros H [f E]. revert E. unfold render, render_ignore. apply bind_np.
  - now apply lex_parse_np.
  - intros ts E. apply lex_parse_np. eapply lex_ok; eauto. apply templates_true.
Qed.
End NoPanic.

(** ** The instance *)
Lemma replace_char_In x c r s : In x (replace_char c r s) -> (In x s /\ x <> c) \/ In x r.
Proof.
  unfold replace_char. rewrite in_flat_map. intros (y & I & J).
  destruct (ceq y c) eqn:E; [now right|]. left. destruct J as [<-|[]].
  split; [auto|]. now apply ceq_neq.
Qed.
Lemma replace_char_not_In c r s : ~ In c r -> ~ In c (replace_char c r s).
Proof. intros H I. apply replace_char_In in I as [[_ N]|I]; auto. Qed.
Lemma replace_char_keep x c r s : ~ In x s -> ~ In x r -> ~ In x (replace_char c r s).
Proof. intros H K I. apply replace_char_In in I as [[I _]|I]; auto. Qed.

Lemma sanitize_no_lbrace s : ~ In c_lbrace (sanitize s).
Proof.
  unfold sanitize. do 6 (apply replace_char_keep; [|vm_compute; intuition discriminate]).
  apply replace_char_not_In. vm_compute; intuition discriminate.
Qed.

Lemma infix_cons_inv a c s : infix a (c :: s) -> infix a s \/ exists b, a = c :: b /\ infix b s.
Proof.
  intros (x & y & E). destruct x as [|d x]; cbn in E.
  - destruct a as [|d a]; [left; apply infix_nil|]. cbn in E. injection E as <- ->.
    right. exists a. split; [auto|]. now exists [], y.
  - injection E as _ ->. left. now exists x, y.
Qed.
Lemma heading_id_no_brace l : ~ In c_lbrace l -> heading_id l = Some l.
Proof.
  intros H. unfold heading_id. destruct (contains (lit "{#") l) eqn:E; [|easy].
  exfalso. apply contains_iff in E. apply H. apply (infix_In _ _ _ E). now left.
Qed.

(** ** When a heading line panics *)

(** The line mentions a custom id, but it is not of the form [text{#id}] with the
    first opening brace being the one of the id. *)
Definition misplaced_id (line : str) : Prop :=
  infix (lit "{#") line /\ In c_rbrace line /\
  forall a b, line = a ++ lit "{#" ++ b ++ lit "}" -> In c_lbrace a.

Lemma heading_id_none line : heading_id line = None <-> misplaced_id line.
Proof.
  unfold heading_id, misplaced_id.
  rewrite <- contains_iff, <- contains_char_iff.
  destruct (contains (lit "{#") line) eqn:E1; cbn [andb]; [|split; [easy | now intros [? _]]].
  destruct (contains_char c_rbrace line) eqn:E2; [|split; [easy | now intros (_ & ? & _)]].
  destruct (split_once c_lbrace line) as [[a b]|] eqn:S.
  2:{ exfalso. apply split_once_none in S. apply contains_iff in E1.
      apply S. apply (infix_In _ _ _ E1). now left. }
  apply split_once_some in S as [-> NA]. rewrite strip_prefix_app.
  assert (U : forall a' b', a ++ c_lbrace :: b = a' ++ lit "{#" ++ b' ++ lit "}" ->
    ~ In c_lbrace a' -> a' = a /\ c_lbrace :: b = lit "{#" ++ b' ++ lit "}").
  { intros a' b' E N.
    assert (X1 : split_once c_lbrace (a ++ c_lbrace :: b) = Some (a, b)) by now apply split_once_app.
    rewrite E in X1. change (lit "{#" ++ b' ++ lit "}") with (c_lbrace :: c_hash :: b' ++ lit "}") in *.
    rewrite split_once_app in X1 by auto. split; congruence. }
  split.
  - intros H. split; [auto|]. split; [auto|]. intros a' b' E.
    destruct (in_dec N.eq_dec c_lbrace a') as [I|I]; [auto|]. exfalso.
    destruct (U _ _ E I) as [-> E']. rewrite E' in H. rewrite strip_prefix_app in H.
    rewrite strip_suffix_app in H. discriminate.
  - intros (_ & _ & H).
    destruct (strip_prefix (lit "{#") (c_lbrace :: b)) as [l2|] eqn:P; [|easy].
    apply strip_prefix_iff in P.
    destruct (strip_suffix (lit "}") l2) as [l3|] eqn:Q; [|easy].
    apply strip_suffix_iff in Q. subst l2. exfalso. apply NA. apply (H a l3). now rewrite P.
Qed.

(** A text in which no heading mark is followed by a line that panics. *)
Definition id_safe (s : str) : Prop := forall sep l, is_sp_tab sep = true -> ~ In c_nl l ->
  infix (c_hash :: sep :: l) s -> ~ misplaced_id l.

Lemma id_safe_no_brace s : ~ In c_lbrace s -> id_safe s.
Proof.
  intros N sep l _ _ I (J & _). apply N. apply (infix_In _ _ _ I). do 2 right.
  apply (infix_In _ _ _ J). now left.
Qed.
Lemma id_safe_texts : texts id_safe.
Proof.
  split.
  - intros a s I H sep l A B J. apply (H sep); auto. eapply infix_trans; eauto.
  - apply id_safe_no_brace. vm_compute. intuition discriminate.
  - apply id_safe_no_brace. vm_compute. intuition discriminate.
  - intros s _. apply id_safe_no_brace, sanitize_no_lbrace.
Qed.

Lemma id_safe_never_crashes s : id_safe s -> ~ crashes s.
Proof.
  apply never_crashes; [apply id_safe_texts|]. intros sep l A B H E.
  apply heading_id_none in E. revert E. apply (H sep); auto using infix_refl.
Qed.

Lemma no_custom_id_safe s : ~ infix (lit "{#") s \/ ~ In c_rbrace s -> id_safe s.
Proof.
  intros H sep l _ _ I (J & K & _). destruct H as [H|H]; apply H.
  - apply (infix_trans _ _ _ J). apply (infix_trans _ (c_hash :: sep :: l)); [|exact I].
    exists [c_hash; sep], []. now rewrite app_nil_r.
  - apply (infix_In _ _ _ I). now do 2 right.
Qed.

Lemma app_eq_mid {A} (a b c d : list A) : a ++ b = c ++ d ->
  (exists m, c = a ++ m /\ b = m ++ d) \/ (exists m, a = c ++ m /\ d = m ++ b).
Proof.
  revert c; induction a as [|x a IH]; intros c E.
  - left. now exists c.
  - destruct c as [|y c].
    + right. exists (x :: a). auto.
    + cbn in E. injection E as <- E. destruct (IH _ E) as [(m & -> & ->)|(m & -> & ->)].
      * left. now exists m.
      * right. now exists m.
Qed.
Lemma rep_inv {A} (x : A) k a b : repeat x k = a ++ b -> exists j, a = repeat x j.
Proof.
  revert a; induction k as [|k IH]; intros [|y a] E; try (exists 0; reflexivity); cbn in E; try easy.
  injection E as <- E. destruct (IH _ E) as [j ->]. now exists (S j).
Qed.
Lemma placed_prefix t l m :
  (~ infix (lit "{#") t \/ ~ In c_rbrace t \/
   exists u v k, t = u ++ lit "{#" ++ v ++ crep k c_rbrace /\
     ~ In c_lbrace u /\ ~ In c_rbrace u /\ ~ In c_rbrace v) ->
  t = l ++ m -> ~ misplaced_id l.
Proof.
  intros [H|[H|(u & v & k & Et & U1 & U2 & V)]] E (J & K & M).
  - apply H. rewrite E. eapply infix_trans; [exact J|]. now exists [], m.
  - apply H. rewrite E. apply in_or_app. now left.
  - rewrite Et in E. replace (u ++ lit "{#" ++ v ++ crep k c_rbrace)
      with ((u ++ lit "{#" ++ v) ++ crep k c_rbrace) in E by now rewrite <- !app_assoc.
    apply app_eq_mid in E as [(w & -> & E)|(w & E & _)].
    + apply rep_inv in E as [[|j] ->].
      * rewrite app_nil_r in K. rewrite !in_app_iff in K.
        destruct K as [K|[K|K]]; [auto| |auto]. revert K. vm_compute. intuition discriminate.
      * apply U1. apply (M u (v ++ crep j c_rbrace)).
        replace (repeat c_rbrace (S j)) with (crep j c_rbrace ++ lit "}").
        2:{ symmetry. exact (repeat_cons j c_rbrace). }
        now rewrite <- !app_assoc.
    + assert (I : In c_rbrace (u ++ lit "{#" ++ v)) by (rewrite E; apply in_or_app; now left).
      rewrite !in_app_iff in I. destruct I as [I|[I|I]]; [auto| |auto].
      revert I. vm_compute. intuition discriminate.
Qed.
Lemma ids_placed_safe s : ids_placed s -> id_safe s.
Proof.
  intros H sep l Hs Nl (x & y & E). apply (placed_prefix (l ++ take_while not_nl y) l (take_while not_nl y)); [|auto].
  cbn [app] in E.
  apply (H x sep _ (drop_while not_nl y)); auto.
  - unfold is_sp_tab in Hs. apply orb_true_iff in Hs as [Hs|Hs]; apply ceq_eq in Hs; auto.
  - intros I. apply in_app_iff in I as [I|I]; [auto|]. pose proof (take_while_forall not_nl y) as F.
    apply (proj1 (forallb_forall _ _) F) in I. discriminate.
  - destruct (drop_while not_nl y) as [|c z] eqn:D; [now left|]. right. exists z.
    apply drop_while_head in D. apply negb_false_iff, ceq_eq in D. now subst.
  - rewrite E. cbn [app]. now rewrite <- app_assoc, take_drop.
Qed.

Lemma lex_heading_line REN n line rest :
  1 <= n <= 6 -> ~ In c_nl line -> (rest = [] \/ exists r, rest = c_nl :: r) ->
  lex_heading REN (crep n c_hash ++ c_sp :: line ++ rest) =
  match heading_id line with
  | None => Panic
  | Some l =>
      if forallb (ceq c_hash) l then Ret (LOk (Header n [] None) rest)
      else bind (REN (trim_end_by is_sp_tab (heading_trailing l)) [c_hash])
             (fun html => Ret (LOk (Header n (heading_unwrap html) None) rest))
  end.
Proof.
  intros Hn Hl Hr. unfold lex_heading, consume_while.
  assert (FH : forallb (ceq c_hash) (crep n c_hash) = true).
  { apply forallb_forall. intros x I. apply repeat_spec in I as ->. apply ceq_refl. }
  rewrite take_while_app, drop_while_app by exact FH.
  rewrite take_while_stop, drop_while_stop by reflexivity. rewrite app_nil_r.
  assert (L : length (crep n c_hash) = n) by apply repeat_length.
  rewrite L. destruct (6 <? n) eqn:E; [apply Nat.ltb_lt in E; lia|].
  unfold heading_sep, next_if_eq. rewrite ceq_refl.
  assert (FL : forallb not_nl line = true).
  { apply forallb_forall. intros x I. unfold not_nl. apply negb_true_iff, ceq_neq.
    intros ->. auto. }
  rewrite take_while_app, drop_while_app by exact FL.
  assert (R : take_while not_nl rest = [] /\ drop_while not_nl rest = rest).
  { destruct Hr as [->|[r ->]]; [auto|]. split; reflexivity. }
  destruct R as [-> ->]. rewrite app_nil_r. reflexivity.
Qed.

Lemma dispatch_hash LEX REN LOOP last r :
  dispatch LEX REN LOOP [] last c_hash r = lex_heading REN r.
Proof. reflexivity. Qed.

Lemma heading_crashes n line rest :
  1 <= n <= 6 -> ~ In c_nl line -> (rest = [] \/ exists r, rest = c_nl :: r) ->
  misplaced_id line -> crashes (crep n c_hash ++ c_sp :: line ++ rest).
Proof.
  intros Hn Hl Hr B. exists 1. unfold render, render_ignore. cbn [lex].
  set (s := crep n c_hash ++ _). cbn [lex_loop].
  assert (HD : exists s', s = c_hash :: s').
  { subst s. destruct n; [lia|]. cbn. eauto. }
  destruct HD as [s' HD]. rewrite HD at 1. cbn [next_token]. rewrite <- HD.
  rewrite dispatch_hash. subst s. rewrite lex_heading_line by auto.
  apply heading_id_none in B. now rewrite B.
Qed.
