(** * Sections: a document is rendered section by section.

    A section is closed by an empty line if it leaves neither a list, a quote or code open nor a
    footnote behind; what follows is then rendered as if it stood alone. *)
From Coq Require Import Ascii String.
From Verif Require Import Strings StringsFacts Token Iter Lexer Parser LexerFacts LexMono Alike Lead Local.
Open Scope list_scope.

(** ** Newlines *)
Section Newlines.
Variable LEX : str -> list char -> res (list token).
Variable REN : str -> list char -> res str.
Variable LOOP : nat.

Lemma newline_is ig last r r' : next_token LEX REN LOOP ig last r = Ret (Some (Newline, r')) ->
  lex_newlines r = LOk Newline r' /\ exists q, r = c_nl :: q.
Proof.
  destruct r as [|c r]; [discriminate|]. cbn [next_token]. unfold dispatch.
  destruct (_ && _).
  { unfold lex_heading. destruct (consume_while (ceq c_hash) (c :: r)) as [h r1].
    destruct (6 <? _); [discriminate|]. destruct (heading_sep r1); [|discriminate].
    destruct (consume_while not_nl _) as [l0 r3]. destruct (heading_id l0); [|discriminate].
    destruct (forallb _ _); [discriminate|]. destruct (REN _ _); discriminate. }
  destruct (ceq c c_nl) eqn:C.
  { apply N.eqb_eq in C. subst c. cbn [bind]. unfold lex_newlines.
    destruct (consume_while _ _) as [s r1]. destruct (2 <=? _); [|discriminate].
    intros [= <-]. split; [reflexivity|]. now exists r. }
  destruct (_ || _).
  { unfold lex_tabs_spaces. destruct (lex_tabs_spaces_go _ _ _) as [l|] eqn:E; [|discriminate]. cbn [bind].
    destruct l as [t q|]; [|discriminate]. intros [= -> ->]. exfalso. revert E. generalize (length (c :: r)) as n.
    generalize (c :: r) as y. intros y n. destruct n as [|n]; [discriminate|]. cbn [lex_tabs_spaces_go].
    destruct (consume_while _ _) as [ws r1]. destruct (_ && _ && _); [discriminate|]. destruct (_ && _); [discriminate|].
    destruct (consume_until_tail_is _ _) as [line r2]. destruct (_ && _ && _); [discriminate|].
    destruct (_ || _); [discriminate|]. destruct (str_eqb _ _); [discriminate|].
    destruct (_ || _); [|discriminate]. destruct (lex_tabs_spaces_go n last r2) as [[[] q|]|]; discriminate. }
  destruct (is_digit c).
  { unfold lex_numbers. destruct (next_if_eq _ _) as [r2|]; [|discriminate].
    destruct (next_if_eq c_sp r2); [|discriminate]. destruct (consume_while _ _); discriminate. }
  destruct (ceq c c_star || ceq c c_under).
  { cbn [bind]. unfold lex_asterisk_underscore. destruct (consume_while _ _) as [s r1].
    destruct (if length s =? 1 then next_if_eq c_sp r1 else None) as [r2|];
      [destruct (consume_while _ _); discriminate|]. destruct (_ && _); [discriminate|]. unfold lex_strong.
    destruct (length s) as [|[|[|[|k]]]]; [destruct (_ || _); discriminate|..|destruct (_ || _); discriminate];
      destruct (consume_while _ r1) as [s2 r2]; [discriminate|..];
      destruct (consume_while _ r2) as [s3 r3]; destruct (_ =? _); discriminate. }
  destruct (_ || _).
  { unfold lex_plus_minus. destruct (consume_while _ _) as [s r1]. destruct (length s) as [|[|[|k]]]; try discriminate.
    destruct (consume_while _ _) as [s2 r2]. destruct (list_paragraphs _ _) as [[m r3]|]; [|discriminate].
    unfold list_item_token. destruct (starts_with _ _); [discriminate|]. destruct (_ || _); [discriminate|].
    destruct (peek_line_ahead _); [|discriminate]. destruct (consume_line_ahead _) as [u v].
    destruct (starts_with _ _); [destruct (LEX _ _); discriminate|].
    destruct (starts_with _ _); [destruct (LEX _ _); discriminate|discriminate]. }
  destruct (ceq c c_gt).
  { cbn [bind]. unfold lex_blockquotes. destruct (consume_while _ _) as [s r1]. destruct (_ || _); [|discriminate].
    destruct (consume_while _ _); discriminate. }
  destruct (ceq c c_tilde).
  { cbn [bind]. unfold lex_tilde. destruct (consume_while _ _) as [s r1]. destruct (length s) as [|[|[|k]]]; try discriminate.
    destruct (consume_while _ r1) as [s2 r2]. destruct (consume_while _ r2) as [s3 r3]. destruct (_ =? _); discriminate. }
  destruct (ceq c c_tick).
  { cbn [bind]. unfold lex_backticks. destruct (consume_while _ _) as [s r1]. destruct (length s =? 3).
    - destruct (match next_if_eq c_nl r1 with Some r2 => ([], r2)
              | None => let (l, r2) := consume_while not_nl r1 in (l, next r2) end) as [lang r2].
      destruct (consume_while _ r2) as [s3 r3]. destruct (consume_while _ r3) as [s4 r4].
      destruct (_ =? _); discriminate.
    - destruct (consume_until_tail_is _ _) as [s2 r2]. destruct (negb _); [discriminate|].
      destruct (_ && _); discriminate. }
  assert (forall y z, lex_links y <> Ret (LOk Newline z)) as LL.
  { intros y z. unfold lex_links. destruct (next_if_eq _ _) as [r1|]; [|discriminate].
    destruct (consume_while _ _) as [s r2]. destruct (next_if_eq _ _) as [r3|]; [|discriminate].
    destruct (if starts_with _ _ then _ else _) as [r4|].
    - unfold lex_footnote. destruct (footnote_lines _ _) as [[r5|r5]|]; try discriminate.
      destruct (existsb _ _); discriminate.
    - destruct (next_if_eq _ _) as [r4|]; [|discriminate]. unfold lex_link_dest.
      destruct (consume_while _ _) as [s2 r5]. destruct r5 as [|y5 r5]; [discriminate|].
      destruct (next_if_eq _ _) as [r6|]; [destruct (validate_link _); discriminate|].
      destruct (consume_while _ _) as [s3 r6]. destruct (validate_link _); discriminate. }
  destruct (ceq c c_lbrk).
  { destruct (lex_links (c :: r)) as [[t q|]| |] eqn:E; cbn [bind]; try discriminate. intros [= -> ->]. now elim (LL _ _ E). }
  destruct (ceq c c_bang).
  { unfold lex_images. destruct (next_if_eq _ _) as [r1|]; [|discriminate].
    destruct (lex_links r1) as [[[] q|]| |]; discriminate. }
  destruct (ceq c c_lt).
  { unfold lex_side_carrot. destruct (next_if_eq _ _) as [r1|]; [|discriminate].
    destruct (consume_while _ _) as [s r2]. destruct (next_if_eq _ _) as [r3|]; [|discriminate].
    destruct (str_eqb _ _).
    - destruct (next_if_eq _ _) as [r5|]; [|discriminate]. unfold parse_details.
      destruct (consume_while _ _) as [s2 r6]. destruct (_ || _); [discriminate|].
      destruct (strip_prefix _ _); [|discriminate]. destruct (consume_until_tail_is _ _) as [t0 r7].
      destruct (if contains _ _ then _ else _) as [[t1 r8]|]; [|discriminate]. destruct (LEX _ _); discriminate.
    - destruct s as [|d s]; [discriminate|]. destruct (existsb _ _); [discriminate|].
      destruct (validate_link _) as [[u [k|]]|]; discriminate. }
  destruct (ceq c c_pipe).
  { unfold lex_pipes. destruct (table_lines _ _) as [[ls r1]|]; [|discriminate].
    destruct ls as [|h [|al bd]]; [discriminate..|]. destruct (_ <? _); [discriminate|].
    destruct (negb _); [discriminate|]. destruct (mapM _ _); discriminate. }
  destruct (ceq c c_bslash).
  { cbn [bind]. unfold lex_escaped_character. destruct (next (c :: r)) as [|d q]; [discriminate|].
    destruct (ceq d c_hash); [destruct (consume_while _ _)|]; discriminate. }
  discriminate.
Qed.

Lemma newlines_all r : lex_newlines r = LOk Newline [] -> exists k, 2 <= k /\ r = crep k c_nl.
Proof.
  unfold lex_newlines, consume_while. destruct (2 <=? _) eqn:L; [|discriminate]. intros [= D].
  exists (length r). pose proof (take_drop (ceq c_nl) r) as T. rewrite D, app_nil_r in T.
  rewrite T in L. split; [now apply Nat.leb_le in L|].
  pose proof (take_while_forall (ceq c_nl) r) as F. rewrite T in F. clear T L D.
  induction r as [|c r IH]; [reflexivity|]. cbn [forallb] in F. apply andb_prop in F as [A B].
  apply N.eqb_eq in A. subst c. cbn [length crep repeat]. f_equal. now apply IH.
Qed.

Variable x : str.
Hypothesis no_tab : forall r, x <> c_tab :: r.

(** If the last token of a text is an empty line, the text ends with it. *)
Lemma closed_end n ig last r ts : lex_loop LEX REN LOOP n ig last r = Ret (ts ++ [Newline]) -> exists q, r = q ++ [c_nl].
Proof.
  revert last r ts; induction n as [|n IH]; intros last r ts; [discriminate|]. cbn [lex_loop].
  destruct (next_token LEX REN LOOP ig last r) as [[[t r']|]| |] eqn:E; cbn [bind]; try discriminate.
  2:{ intros [= D]. now destruct ts. }
  destruct (lex_loop LEX REN LOOP n ig (Some t) r') as [ts'| |] eqn:L; cbn [bind]; try discriminate.
  intros [= D].
  destruct ts as [|t0 ts]; cbn [app] in D; injection D as -> D.
  - apply newline_is in E as [E _]. subst ts'. destruct n; [discriminate L|]. cbn [lex_loop] in L.
    destruct (next_token LEX REN LOOP ig (Some Newline) r') as [[[t2 r2]|]| |] eqn:E2; cbn [bind] in L; try discriminate L.
    { destruct (lex_loop _ _ _ _ _ _ _); discriminate L. }
    destruct r' as [|c r']; [|exfalso; cbn [next_token] in E2; destruct (dispatch _ _ _ _ _ _ _) as [[]| |]; discriminate E2].
    apply newlines_all in E as (k & K & ->). exists (crep (k - 1) c_nl).
    destruct k; [lia|]. rewrite Nat.sub_succ, Nat.sub_0_r. unfold crep. cbn [repeat]. now rewrite <- repeat_cons.
  - subst ts'. apply IH in L. apply next_token_progress, ssuffix_suffix in E as [p ->].
    destruct L as [q ->]. exists (p ++ q). now rewrite app_assoc.
Qed.
Lemma newlines_on k : 2 <= k -> lex_newlines (crep k c_nl ++ x) = LOk Newline (drop_while (ceq c_nl) x).
Proof.
  intros K. destruct (nls_or_not x) as (j & y & -> & H). rewrite app_assoc. unfold crep at 1 2. rewrite <- repeat_app.
  unfold lex_newlines, consume_while. fold (crep (k + j) c_nl).
  destruct (take_nls (k + j) y H) as [-> ->]. destruct (take_nls j y H) as [_ ->].
  unfold crep. rewrite repeat_length. destruct k as [|[|k]]; [lia|lia|]. reflexivity.
Qed.
Lemma closed_ext T ig :
  (forall m, length (drop_while (ceq c_nl) x) < m ->
     lex_loop LEX REN LOOP m ig (Some Newline) (drop_while (ceq c_nl) x) = T) ->
  forall n last r ts, lex_loop LEX REN LOOP n ig last r = Ret (ts ++ [Newline]) ->
  forall m, length (r ++ x) < m ->
  lex_loop LEX REN LOOP m ig last (r ++ x) = bind T (fun ts' => Ret (ts ++ Newline :: ts')).
Proof.
  intros HT. induction n as [|n IH]; intros last r ts; [discriminate|]. intros E0 m M.
  pose proof (closed_end _ _ _ _ _ E0) as [q0 N]. revert E0.
  destruct m as [|m]; [lia|]. cbn [lex_loop].
  destruct (next_token LEX REN LOOP ig last r) as [[[t r']|]| |] eqn:E; cbn [bind]; try discriminate.
  2:{ intros [= D]. now destruct ts. }
  destruct (lex_loop LEX REN LOOP n ig (Some t) r') as [ts'| |] eqn:L; cbn [bind]; try discriminate.
  intros [= D]. rewrite app_length in M. pose proof (ssuffix_length _ _ (next_token_progress _ _ _ _ _ _ _ _ E)) as P.
  destruct ts as [|t0 ts]; cbn [app] in D; injection D as -> D.
  - destruct (newline_is _ _ _ _ E) as [E1 [q Q]]. subst ts'. destruct n; [discriminate L|]. cbn [lex_loop] in L.
    destruct (next_token LEX REN LOOP ig (Some Newline) r') as [[[t2 r2]|]| |] eqn:E2; cbn [bind] in L; try discriminate L.
    { destruct (lex_loop _ _ _ _ _ _ _); discriminate L. }
    destruct r' as [|c r']; [|exfalso; cbn [next_token] in E2; destruct (dispatch _ _ _ _ _ _ _) as [[]| |]; discriminate E2].
    apply newlines_all in E1 as (k & K & E1).
    assert (next_token LEX REN LOOP ig last (r ++ x) = Ret (Some (Newline, drop_while (ceq c_nl) x))) as ->.
    { rewrite E1. destruct k as [|k]; [lia|].
      change (crep (S k) c_nl ++ x) with (c_nl :: crep k c_nl ++ x). cbn [next_token]. unfold dispatch.
      change (ceq c_nl c_hash) with false. change (ceq c_nl c_nl) with true. cbn [andb]. cbv iota.
      change (c_nl :: crep k c_nl ++ x) with (crep (S k) c_nl ++ x). rewrite newlines_on by lia. reflexivity. }
    cbn [bind app]. rewrite HT; [reflexivity|].
    pose proof (suffix_length _ _ (suffix_drop_while (ceq c_nl) x)). subst r. rewrite E1 in *.
    cbn [length] in P. lia.
  - subst ts'. rewrite (token_ext x no_tab _ _ _ ig last r t0 r').
    + cbn [bind]. rewrite (IH _ _ _ L) by (rewrite app_length; lia). destruct T; reflexivity.
    + right. now exists q0.
    + exact E.
    + intros ->. apply closed_end in L as [q L]. now destruct q.
Qed.
End Newlines.

(** ** What a section leaves behind *)
Definition settled (t : token) : bool :=
  match t with
  | OrderedListEntry _ | UnorderedListEntry _ | BlockQuote _ _ | TaskListItem _ _ | Code _ | Footnote _ _ => false
  | _ => true
  end.
(** Nothing but a paragraph is open. *)
Definition clean (p : pstate) : Prop := p = mkP (html p) 0 false (in_paragraph p) false false false [].

Section Behind.
Variable R : str -> res str.
Variable P : list token -> res str.

Lemma clean_pre t p : settled t = true -> clean p -> clean (pre t p).
Proof.
  intros S C. unfold clean in C. rewrite C. unfold clean.
  destruct t; try discriminate S; cbn [pre]; try (destruct (is_blank _)); destruct (in_paragraph p); cbn; reflexivity.
Qed.
Lemma clean_body t p q : settled t = true -> clean p -> body R P t p = Ret q -> clean q.
Proof.
  intros S C. unfold clean in C. rewrite C. unfold clean.
  destruct t; try discriminate S; cbn [body]; try (intros [= <-]; reflexivity).
  - destruct (is_blank _); intros [= <-]; reflexivity.
  - destruct (P _); cbn [bind]; [|discriminate..]. intros [= <-]. destruct (in_paragraph p); reflexivity.
  - destruct (row0_len _); [|discriminate]. destruct (negb _); [intros [= <-]; reflexivity|].
    destruct (table_html _ _ _); cbn [bind]; [|discriminate..]. intros [= <-]. reflexivity.
Qed.
Lemma clean_loop ts p q : forallb settled ts = true -> clean p -> parse_loop R P ts p = Ret q -> clean q.
Proof.
  revert p; induction ts as [|t ts IH]; intros p; cbn [forallb parse_loop]; [now intros _ C [= <-]|].
  intros F C. apply andb_prop in F as [F1 F2].
  destruct (body R P t (pre t p)) as [p1| |] eqn:B; cbn [bind]; try discriminate.
  apply IH; [exact F2|]. eapply clean_body; [exact F1| |exact B]. now apply clean_pre.
Qed.
Lemma clean_newline p : clean p ->
  body R P Newline (pre Newline p) =
  Ret (mkP (html p ++ if in_paragraph p then lit "</p>" ++ [c_nl] else []) 0 false false false false false []).
Proof.
  intros C. unfold clean in C. rewrite C. cbn [html in_paragraph]. destruct (in_paragraph p); cbn; [reflexivity|].
  now rewrite app_nil_r.
Qed.

(** Html in front is carried along. *)
Definition lead (h : str) (p : pstate) : pstate :=
  mkP (h ++ html p) (quote_level p) (in_task_list p) (in_paragraph p)
      (in_ordered_list p) (in_unordered_list p) (in_code p) (references p).
Lemma lead_push h s p : push s (lead h p) = lead h (push s p).
Proof. unfold push, lead. cbn [html quote_level in_task_list in_paragraph in_ordered_list in_unordered_list in_code references]. now rewrite app_assoc. Qed.
Lemma lead_set_quote h q p : set_quote q (lead h p) = lead h (set_quote q p). Proof. reflexivity. Qed.
Lemma lead_set_task h q p : set_task q (lead h p) = lead h (set_task q p). Proof. reflexivity. Qed.
Lemma lead_set_par h q p : set_par q (lead h p) = lead h (set_par q p). Proof. reflexivity. Qed.
Lemma lead_set_ol h q p : set_ol q (lead h p) = lead h (set_ol q p). Proof. reflexivity. Qed.
Lemma lead_set_ul h q p : set_ul q (lead h p) = lead h (set_ul q p). Proof. reflexivity. Qed.
Lemma lead_set_code h q p : set_code q (lead h p) = lead h (set_code q p). Proof. reflexivity. Qed.
Lemma lead_add_ref h q p : add_ref q (lead h p) = lead h (add_ref q p). Proof. reflexivity. Qed.
Lemma lead_open h p : open_par (lead h p) = lead h (open_par p).
Proof. unfold open_par. change (in_paragraph (lead h p)) with (in_paragraph p). destruct (in_paragraph p); [reflexivity|].
  now rewrite lead_set_par, lead_push. Qed.
Ltac leads := rewrite ?lead_set_quote, ?lead_set_task, ?lead_set_par, ?lead_set_ol, ?lead_set_ul, ?lead_set_code,
  ?lead_add_ref, ?lead_open, ?lead_push.
Lemma lead_pre h t p : pre t (lead h p) = lead h (pre t p).
Proof.
  unfold pre.
  change (in_paragraph (lead h p)) with (in_paragraph p). change (in_ordered_list (lead h p)) with (in_ordered_list p).
  change (in_unordered_list (lead h p)) with (in_unordered_list p). change (in_task_list (lead h p)) with (in_task_list p).
  change (in_code (lead h p)) with (in_code p). change (quote_level (lead h p)) with (quote_level p).
  destruct t; repeat match goal with |- context [if ?c then _ else _] => destruct c end; try reflexivity;
    repeat (leads; try reflexivity).
Qed.
Lemma lead_body h t p : body R P t (lead h p) = rmap (lead h) (body R P t p).
Proof.
  unfold body.
  change (in_paragraph (lead h p)) with (in_paragraph p). change (in_ordered_list (lead h p)) with (in_ordered_list p).
  change (in_unordered_list (lead h p)) with (in_unordered_list p). change (in_task_list (lead h p)) with (in_task_list p).
  destruct t; cbn [rmap]; try (leads; reflexivity);
    repeat match goal with
    | |- context [if in_paragraph p then _ else _] => destruct (in_paragraph p)
    | |- context [if in_ordered_list p then _ else _] => destruct (in_ordered_list p)
    | |- context [if in_unordered_list p then _ else _] => destruct (in_unordered_list p)
    | |- context [if in_task_list p then _ else _] => destruct (in_task_list p)
    | |- context [if is_blank ?c then _ else _] => destruct (is_blank c)
    | |- context [if is_empty ?c then _ else _] => destruct (is_empty c)
    | |- context [match row0_len ?c with _ => _ end] => destruct (row0_len c)
    | |- context [if negb ?c then _ else _] => destruct (negb c)
    | |- context [bind ?c _] => destruct c; cbn [bind rmap]
    end; cbn [bind rmap]; try reflexivity;
    repeat (leads; try reflexivity).
Qed.
Lemma lead_loop h ts p : parse_loop R P ts (lead h p) = rmap (lead h) (parse_loop R P ts p).
Proof.
  revert p; induction ts as [|t ts IH]; intros p; [reflexivity|]. cbn [parse_loop].
  rewrite lead_pre, lead_body. destruct (body R P t (pre t p)); cbn [rmap bind]; auto.
Qed.
Lemma loop_app ts us p : parse_loop R P (ts ++ us) p = bind (parse_loop R P ts p) (parse_loop R P us).
Proof.
  revert p; induction ts as [|t ts IH]; intros p; [reflexivity|]. cbn [app parse_loop].
  destruct (body R P t (pre t p)); cbn [bind]; auto.
Qed.
End Behind.

(** ** The seam *)
(** [out] is [hs] followed by [hx], except for a newline at the seam. *)
Definition joined (hs hx out : str) : Prop := exists a b i j k, i <= 1 /\ j <= 1 /\ k <= 1 /\
  hs = a ++ crep i c_nl /\ hx = crep j c_nl ++ b /\ out = a ++ crep k c_nl ++ b.

Definition nlz (h : str) : str := if ends_nl h then h else h ++ [c_nl].
Lemma ends_nlz h : ends_nl (nlz h) = true.
Proof. unfold nlz. destruct (ends_nl h) eqn:E; [exact E|]. apply ends_with_app. Qed.
Definition stretch (p : pstate) : str :=
  html p ++ (if in_paragraph p then lit "</p>" ++ [c_nl] else [])
  ++ nrep (quote_level p) (lit "</blockquote>" ++ [c_nl])
  ++ (if in_task_list p || in_unordered_list p then lit "</ul>" else [])
  ++ (if in_ordered_list p then lit "</ol>" else []).
Definition trail (p : pstate) : str :=
  (if in_code p then lit "</code></pre>" else []) ++ refs_html (references p).
Lemma finish_nlz p : finish p = nlz (stretch p) ++ trail p.
Proof.
  unfold finish, trail. cbv zeta.
  assert ((((html p ++ (if in_paragraph p then lit "</p>" ++ [c_nl] else []))
    ++ nrep (quote_level p) (lit "</blockquote>" ++ [c_nl]))
    ++ (if in_task_list p || in_unordered_list p then lit "</ul>" else []))
    ++ (if in_ordered_list p then lit "</ol>" else []) = stretch p) as ->
    by (unfold stretch; now rewrite <- !app_assoc).
  pose proof (ends_nlz (stretch p)) as E. unfold nlz in *.
  destruct (in_code p); [|now destruct (ends_nl (stretch p))].
  destruct (ends_nl (stretch p)) eqn:E2; rewrite ?E, ?E2; now rewrite <- ?app_assoc.
Qed.
Lemma nlz_app h g : g <> [] -> nlz (h ++ g) = h ++ nlz g.
Proof.
  intros G. destruct (exists_last G) as (g' & y & ->). unfold nlz, ends_nl, ends_with.
  rewrite app_assoc, !rev_app_distr. cbn [rev app starts_with].
  replace (starts_with [] (rev g' ++ rev h)) with (starts_with [] (rev g')) by now destruct (rev g'), (rev h).
  destruct (_ && _); now rewrite <- !app_assoc.
Qed.
Lemma finish_lead h p : joined (nlz h) (finish p) (finish (lead h p)).
Proof.
  rewrite !finish_nlz. change (trail (lead h p)) with (trail p).
  assert (stretch (lead h p) = h ++ stretch p) as -> by (unfold stretch, lead; cbn [html quote_level in_task_list in_paragraph in_ordered_list in_unordered_list in_code references]; now rewrite <- app_assoc).
  destruct (stretch p) as [|c g] eqn:G.
  - rewrite app_nil_r. change (nlz []) with [c_nl]. unfold nlz. destruct (ends_nl h).
    + exists h, (trail p), 0, 1, 0. rewrite app_nil_r. repeat split; auto.
    + exists h, (trail p), 1, 1, 1. repeat split; auto. cbn. now rewrite <- app_assoc.
  - rewrite nlz_app by discriminate. rewrite <- G. unfold nlz at 1. destruct (ends_nl h).
    + exists h, (nlz (stretch p) ++ trail p), 0, 0, 0. rewrite app_nil_r, <- app_assoc. repeat split; auto.
    + exists h, (nlz (stretch p) ++ trail p), 1, 0, 0. rewrite <- app_assoc. repeat split; auto.
Qed.

(** ** The whole *)
Definition closed_section (s : str) : Prop :=
  exists f ts, lex f s [] = Ret (ts ++ [Newline]) /\ forallb settled ts = true.

Lemma not_indented_tab x : ~ indented x -> forall r, x <> c_tab :: r.
Proof. intros H r ->. apply H. right. exists 0, r. auto. Qed.

Lemma nls_last f n l1 l2 s : (last_is_plaintext l1 || last_is_newline l1) = (last_is_plaintext l2 || last_is_newline l2) ->
    lex_loop (lex f) (fun s ig => bind (lex f s ig) (parse f)) f n [] l1 s =
    lex_loop (lex f) (fun s ig => bind (lex f s ig) (parse f)) f n [] l2 s.
Proof.
  intros E. destruct n as [|n]; [reflexivity|]. cbn [lex_loop]. f_equal. destruct s as [|c r]; [reflexivity|]. cbn [next_token]. f_equal.
  unfold dispatch. destruct (_ && _); [reflexivity|]. destruct (ceq c c_nl); [reflexivity|].
  destruct (ceq c c_sp || ceq c c_tab); [|reflexivity]. unfold lex_tabs_spaces.
  assert (forall n r, lex_tabs_spaces_go n l1 r = lex_tabs_spaces_go n l2 r) as Q.
  { clear n. induction n as [|n IH]; intros x; [reflexivity|]. cbn [lex_tabs_spaces_go].
    destruct (consume_while is_sp_tab x) as [ws r1]. destruct (_ && _ && _); [reflexivity|].
    destruct (_ && _); [reflexivity|]. destruct (consume_until_tail_is [c_nl] r1) as [line r2].
    rewrite E, IH. reflexivity. }
  now rewrite Q.
Qed.

Lemma sections_run f s x ts hs : ~ indented x -> lex (S f) s [] = Ret (ts ++ [Newline]) ->
  forallb settled ts = true -> render (S f) s = Ret hs ->
  match render (S f) x with
  | Ret hx => exists out, render (S f) (s ++ x) = Ret out /\ joined hs hx out
  | Panic => render (S f) (s ++ x) = Panic
  | Hang => render (S f) (s ++ x) = Hang
  end.
Proof.
  intros D L F Hs. destruct (nls_or_not x) as (j & y & Ex & H). destruct (take_nls j y H) as [_ Ed].
  rewrite <- Ex in Ed.
  remember (lex_loop (lex f) (fun s ig => bind (lex f s ig) (parse f)) f (S (length y)) [] (Some Newline) y) as T eqn:ET.
  assert (lex (S f) (s ++ x) [] = bind T (fun ts' => Ret (ts ++ Newline :: ts'))) as L2.
  { cbn [lex] in L |- *. eapply (closed_ext _ _ _ x); [now apply not_indented_tab| |exact L|lia].
    intros m M. rewrite Ed in *. rewrite ET. apply lex_loop_enough; lia. }
  assert (render (S f) x = bind T (parse (S f))) as RX.
  { unfold render, render_ignore. rewrite Ex. destruct j as [|j].
    - cbn [crep repeat app] in *. subst y. cbn [lex].
      rewrite (lex_loop_last _ _ _ _ [] None (Some Newline) x D), <- ET. reflexivity.
    - rewrite lex_nls by (auto; lia). rewrite (nls_last f _ (Some (trace (S j))) (Some Newline))
        by (unfold trace; now destruct (2 <=? S j)).
      rewrite <- ET. destruct T as [ts'| |]; cbn [bind]; try reflexivity.
      cbn [parse]. unfold parse_body. cbn [parse_loop]. now rewrite trace_pre. }
  rewrite RX. unfold render, render_ignore in Hs |- *. rewrite L2. rewrite L in Hs. cbn [bind] in Hs.
  destruct T as [ts'| |]; cbn [bind]; try reflexivity. revert Hs. cbn [parse]. unfold parse_body.
  rewrite !loop_app.
  set (R := fun s0 : str => bind (lex f s0 []) (parse f)).
  destruct (parse_loop R (parse f) ts pinit) as [p| |] eqn:P; cbn [bind]; try discriminate.
  assert (clean p) as C by (eapply clean_loop; [exact F| |exact P]; reflexivity).
  cbn [parse_loop]. rewrite (clean_newline R (parse f) p C). cbn [bind].
  set (h := html p ++ if in_paragraph p then lit "</p>" ++ [c_nl] else []).
  intros [= <-].
  replace (parse_loop R (parse f) ts' (mkP h 0 false false false false false [])) with (parse_loop R (parse f) ts' (lead h pinit))
    by (unfold lead, pinit; cbn [html quote_level in_task_list in_paragraph in_ordered_list in_unordered_list in_code references]; now rewrite app_nil_r).
  rewrite lead_loop. destruct (parse_loop R (parse f) ts' pinit) as [q| |]; cbn [rmap bind]; try reflexivity.
  eexists. split; [reflexivity|].
  replace (finish (mkP h 0 false false false false false [])) with (nlz h); [apply finish_lead|].
  rewrite finish_nlz. unfold stretch, trail.
  cbn [html quote_level in_task_list in_paragraph in_ordered_list in_unordered_list in_code references orb nrep refs_html app].
  now rewrite !app_nil_r.
Qed.

Theorem sections_alone s x hs : closed_section s -> ~ indented x -> renders s hs ->
  (forall hx, renders x hx -> exists out, renders (s ++ x) out /\ joined hs hx out) /\
  (forall out, renders (s ++ x) out -> exists hx, renders x hx /\ joined hs hx out) /\
  (crashes (s ++ x) <-> crashes x) /\ (runs_forever (s ++ x) <-> runs_forever x).
Proof.
  intros (f1 & ts & L & F) D (f2 & Hs).
  assert (forall f, exists g, f <= S g /\ lex (S g) s [] = Ret (ts ++ [Newline]) /\ render (S g) s = Ret hs) as G.
  { intros f. exists (f + f1 + f2). split; [lia|]. split.
    - eapply le_res_ret; [|exact L]. apply lex_mono; lia.
    - eapply le_res_ret; [|exact Hs]. apply render_mono; lia. }
  assert (forall f y a, render f y = Ret a -> forall g, f <= g -> render g y = Ret a) as MR.
  { intros f y a E g K. eapply le_res_ret; [|exact E]. now apply render_mono. }
  assert (forall f y, render f y = Panic -> forall g, f <= g -> render g y = Panic) as MP.
  { intros f y E g K. eapply le_res_panic; [|exact E]. now apply render_mono. }
  split; [|split; [|split]].
  - intros hx [f E]. destruct (G f) as (g & K & A & B). pose proof (sections_run g s x ts hs D A F B) as S.
    rewrite (MR _ _ _ E _ K) in S. destruct S as (out & S1 & S2). exists out. split; [now exists (S g)|exact S2].
  - intros out [f E]. destruct (G f) as (g & K & A & B). pose proof (sections_run g s x ts hs D A F B) as S.
    rewrite (MR _ _ _ E _ K) in S. destruct (render (Datatypes.S g) x) as [hx| |] eqn:X; try discriminate.
    destruct S as (out' & [= <-] & S2). exists hx. split; [now exists (Datatypes.S g)|exact S2].
  - split; intros [f E]; destruct (G f) as (g & K & A & B); pose proof (sections_run g s x ts hs D A F B) as S;
      rewrite (MP _ _ E _ K) in S.
    + destruct (render (Datatypes.S g) x) as [hx| |] eqn:X; [|now exists (Datatypes.S g)|discriminate].
      destruct S as (out' & S1 & _). discriminate S1.
    + now exists (Datatypes.S g).
  - split; intros E f; destruct (G f) as (g & K & A & B); pose proof (sections_run g s x ts hs D A F B) as S.
    + rewrite (E (Datatypes.S g)) in S. destruct (render f x) as [hx| |] eqn:X; [| |reflexivity].
      * rewrite (MR _ _ _ X _ K) in S. destruct S as (out & S1 & _). discriminate S1.
      * rewrite (MP _ _ X _ K) in S. discriminate S.
    + rewrite (E (Datatypes.S g)) in S. destruct (render f (s ++ x)) as [hx| |] eqn:X; [| |reflexivity].
      * rewrite (MR _ _ _ X _ K) in S. discriminate S.
      * rewrite (MP _ _ X _ K) in S. discriminate S.
Qed.

(** ** Plain prose is closed by an empty line *)
Definition calm (c : char) : bool :=
  negb (is_digit c) && negb (mem_char c (c_tab :: lit "*_-+>~`[<|\")).

Lemma nn_drop f q : f c_nl = false -> exists q', drop_while f (q ++ [c_nl; c_nl]) = q' ++ [c_nl; c_nl].
Proof.
  intros F. induction q as [|c q [q' IH]]; cbn [app drop_while].
  - rewrite F. now exists [].
  - destruct (f c); [now exists q'|]. now exists (c :: q).
Qed.
Lemma nn_tl c r q : c <> c_nl -> c :: r = q ++ [c_nl; c_nl] -> exists q', r = q' ++ [c_nl; c_nl].
Proof. intros N E. destruct q as [|d q]; cbn [app] in E; injection E as -> ->; [now elim N|now exists q]. Qed.
Lemma nn_newlines q :
  (exists q', drop_while (ceq c_nl) (q ++ [c_nl; c_nl]) = q' ++ [c_nl; c_nl]) \/
  (drop_while (ceq c_nl) (q ++ [c_nl; c_nl]) = [] /\ 2 <= length (take_while (ceq c_nl) (q ++ [c_nl; c_nl]))).
Proof.
  induction q as [|c q IH]; [right; cbn; auto|]. cbn [app take_while drop_while].
  destruct (ceq c_nl c); [|left; now exists (c :: q)].
  destruct IH as [IH|[A B]]; [now left|right]. cbn [length]. split; [exact A|lia].
Qed.

Section Calm.
Variable LEX : str -> list char -> res (list token).
Variable REN : str -> list char -> res str.
Variable LOOP : nat.

Lemma calm_token ig last r q t r' : forallb calm r = true -> ~ infix (lit "    ") r -> r = q ++ [c_nl; c_nl] ->
  next_token LEX REN LOOP ig last r = Ret (Some (t, r')) ->
  settled t = true /\ ((exists q', r' = q' ++ [c_nl; c_nl]) \/ (r' = [] /\ t = Newline)).
Proof.
  intros C I E. destruct r as [|c r]; [discriminate|]. cbn [next_token]. unfold dispatch.
  pose proof C as C0. cbn [forallb] in C. apply andb_prop in C as [C1 C2]. unfold calm in C1.
  apply andb_prop in C1 as [C1 C3]. apply negb_true_iff in C1, C3. rewrite C1.
  assert (forall d, In d (c_tab :: lit "*_-+>~`[<|\") -> ceq c d = false) as K.
  { intros d H. destruct (ceq c d) eqn:X; [|reflexivity]. apply N.eqb_eq in X. subst d.
    apply mem_char_iff in H. congruence. }
  destruct (_ && _).
  { unfold lex_heading, consume_while. cbv beta iota. rewrite E.
    destruct (nn_drop (ceq c_hash) q eq_refl) as [q1 ->].
    destruct (6 <? _); [intros [= <- <-]; split; [reflexivity|left; now exists q1]|].
    destruct (heading_sep (q1 ++ [c_nl; c_nl])) as [r2|] eqn:S;
      [|intros [= <- <-]; split; [reflexivity|left; now exists q1]].
    assert (exists q2, r2 = q2 ++ [c_nl; c_nl]) as [q2 ->].
    { revert S. destruct q1 as [|d q1]; [intros [= <-]; now exists []|]. unfold heading_sep. cbn [app next_if_eq peek_is].
      destruct (ceq d c_sp); [intros [= <-]; now exists q1|]. destruct (ceq d c_tab); [intros [= <-]; now exists q1|].
      destruct (ceq d c_nl); [intros [= <-]; now exists (d :: q1)|discriminate]. }
    destruct (nn_drop not_nl q2 eq_refl) as [q3 ->].
    destruct (heading_id _) as [l|]; [|discriminate].
    destruct (forallb (ceq c_hash) l); [intros [= <- <-]; split; [reflexivity|left; now exists q3]|].
    destruct (REN _ _); cbn [bind]; [|discriminate..]. intros [= <- <-]. split; [reflexivity|left; now exists q3]. }
  destruct (ceq c c_nl) eqn:CN.
  { cbn [bind]. unfold lex_newlines, consume_while. cbv beta iota. rewrite E.
    destruct (nn_newlines q) as [[q' ->]|[-> L]].
    - destruct (2 <=? _); intros [= <- <-]; (split; [reflexivity|left; now exists q']).
    - apply Nat.leb_le in L. rewrite L. intros [= <- <-]. split; [reflexivity|right; auto]. }
  apply N.eqb_neq in CN. destruct (nn_tl c r q CN E) as [q1 E1].
  assert (ceq c c_tab = false) as -> by (apply K; now left). rewrite orb_false_r.
  destruct (ceq c c_sp) eqn:CS.
  { unfold lex_tabs_spaces. cbn [length lex_tabs_spaces_go]. unfold consume_while. cbv beta iota.
    assert (contains_char c_tab (take_while is_sp_tab (c :: r)) = false) as T.
    { apply contains_char_false. intros H. apply (infix_In _ _ _ (infix_take_while is_sp_tab (c :: r))) in H.
      rewrite forallb_forall in C0. specialize (C0 _ H). discriminate C0. }
    rewrite T.
    assert (1 <= length (take_while is_sp_tab (c :: r)) <= 3) as [L1 L2].
    { split.
      - cbn [take_while]. unfold is_sp_tab at 1. rewrite CS, orb_true_r. cbn. lia.
      - destruct (Nat.le_gt_cases (length (take_while is_sp_tab (c :: r))) 3) as [|G]; [assumption|]. exfalso. apply I.
        eapply infix_trans; [|apply (infix_take_while is_sp_tab)]. apply contains_char_false in T.
        pose proof (take_while_forall is_sp_tab (c :: r)) as F.
        destruct (take_while is_sp_tab (c :: r)) as [|a [|b [|d [|e w]]]]; cbn in G; try lia.
        cbn [forallb] in F. repeat (apply andb_prop in F as [? F]).
        assert (forall z, In z [a; b; d; e] -> is_sp_tab z = true -> z = c_sp) as Z.
        { intros z Hz Sz. unfold is_sp_tab in Sz. apply orb_prop in Sz as [Sz|Sz]; apply N.eqb_eq in Sz; [|exact Sz].
          exfalso. apply T. subst z. cbn [In] in *. tauto. }
        rewrite (Z a), (Z b), (Z d), (Z e) by (cbn [In]; tauto). exists [], w. reflexivity. }
    apply Nat.leb_le in L1, L2. rewrite L1, L2. cbn [andb negb bind]. intros [= <- <-]. split; [reflexivity|left].
    destruct (nn_drop is_sp_tab q eq_refl) as [q' D]. rewrite <- E in D. now exists q'. }
  rewrite !K by (cbn; tauto). cbn [orb].
  destruct (ceq c c_bang) eqn:CB.
  { unfold lex_images. cbn [next_if_eq]. rewrite CB.
    assert (lex_links r = Ret (LErr [] r)) as ->.
    { unfold lex_links. destruct r as [|d r]; [reflexivity|]. cbn [next_if_eq]. destruct (ceq d c_lbrk) eqn:X; [|reflexivity].
      apply N.eqb_eq in X. subst d. cbn [forallb] in C2. apply andb_prop in C2 as [C2 _]. discriminate C2. }
    cbn [bind]. intros [= <- <-]. split; [reflexivity|left; now exists q1]. }
  rewrite (K c_lt), (K c_pipe), (K c_bslash) by (cbn; tauto).
  cbn [bind next tl]. intros [= <- <-]. split; [reflexivity|left; now exists q1].
Qed.
Lemma calm_loop ig n last r q toks : forallb calm r = true -> ~ infix (lit "    ") r -> r = q ++ [c_nl; c_nl] ->
  lex_loop LEX REN LOOP n ig last r = Ret toks -> exists ts, toks = ts ++ [Newline] /\ forallb settled ts = true.
Proof.
  revert last r q toks; induction n as [|n IH]; intros last r q toks C I E; [discriminate|]. cbn [lex_loop].
  destruct (next_token LEX REN LOOP ig last r) as [[[t r']|]| |] eqn:N; cbn [bind]; try discriminate.
  2:{ destruct r as [|c r]; [now destruct q|]. cbn [next_token] in N. destruct (dispatch _ _ _ _ _ _ _) as [[]| |]; discriminate N. }
  destruct (lex_loop LEX REN LOOP n ig (Some t) r') as [ts'| |] eqn:L; cbn [bind]; try discriminate. intros [= <-].
  pose proof (ssuffix_suffix _ _ (next_token_progress _ _ _ _ _ _ _ _ N)) as S.
  destruct (calm_token _ _ _ _ _ _ C I E N) as [St [[q' E']|[-> ->]]].
  - assert (forallb calm r' = true) as C'.
    { destruct S as [p ->]. rewrite forallb_app in C. now apply andb_prop in C as [_ C]. }
    assert (~ infix (lit "    ") r') as I' by (intros H; apply I; eapply infix_trans; [exact H|now apply suffix_infix]).
    destruct (IH _ _ _ _ C' I' E' L) as (ts & -> & F). exists (t :: ts). split; [reflexivity|]. cbn [forallb]. now rewrite St.
  - destruct n; [discriminate L|]. cbn in L. injection L as <-. exists []. auto.
Qed.
End Calm.
Lemma calm_closed s q hs : forallb calm s = true -> ~ infix (lit "    ") s -> s = q ++ [c_nl; c_nl] -> renders s hs ->
  closed_section s.
Proof.
  intros C I Q [f E]. unfold render, render_ignore in E.
  destruct (lex f s []) as [toks| |] eqn:L; cbn [bind] in E; try discriminate E.
  destruct f as [|f]; [discriminate L|]. pose proof L as L0. cbn [lex] in L.
  apply (calm_loop _ _ _ _ _ _ _ q) in L; [|exact C|exact I|exact Q].
  destruct L as (ts & -> & F). exists (S f), ts. auto.
Qed.

(** ** Sections that stay open *)
Lemma joined_filter hs hx out : joined hs hx out -> filter not_nl out = filter not_nl (hs ++ hx).
Proof.
  intros (a & b & i & j & k & _ & _ & _ & -> & -> & ->).
  assert (forall n, filter not_nl (crep n c_nl) = []) as N by (induction n; [reflexivity|assumption]).
  now rewrite !filter_app, !N, !app_nil_r.
Qed.
(** [s] with its empty line, and [x], do not add up. *)
Definition entangled (s x : str) : Prop := exists hs hx out,
  renders (s ++ [c_nl; c_nl; c_nl]) hs /\ renders x hx /\ renders (s ++ [c_nl; c_nl; c_nl] ++ x) out /\ ~ joined hs hx out.
Ltac entangle := eexists; eexists; eexists;
  split; [exists 9; vm_compute; reflexivity|]; split; [exists 9; vm_compute; reflexivity|];
  split; [exists 9; vm_compute; reflexivity|]; intros J; apply joined_filter in J; vm_compute in J; discriminate J.
Lemma open_sections :
  entangled (lit "- a") (lit "b") /\ entangled (lit "1. a") (lit "b") /\ entangled (lit "- [ ] a") (lit "b") /\
  entangled (lit "> a") (lit "> b") /\ entangled (lit "`a`") (lit "b") /\ entangled (lit "[^a]: a") (lit "b") /\
  entangled (lit "a") (lit "    # b").
Proof. repeat split; entangle. Qed.
Lemma sections_ex :
  let s := lit "# a" ++ [c_nl; c_nl] ++ lit "b *c*" ++ [c_nl; c_nl] in
  closed_section s /\ ~ indented (lit "- d") /\
  renders s (lit "<h1>a</h1>" ++ [c_nl] ++ lit "<p>b<em>c</em></p>" ++ [c_nl]) /\
  renders (lit "- d") (lit "<ul>" ++ [c_nl] ++ lit "<li>" ++ [c_nl] ++ lit "<p>d</p>" ++ [c_nl]
    ++ lit "</li>" ++ [c_nl] ++ lit "</ul>" ++ [c_nl]) /\
  renders (s ++ lit "- d")
    (lit "<h1>a</h1>" ++ [c_nl] ++ lit "<p>b<em>c</em></p>" ++ [c_nl] ++
     lit "<ul>" ++ [c_nl] ++ lit "<li>" ++ [c_nl] ++ lit "<p>d</p>" ++ [c_nl]
    ++ lit "</li>" ++ [c_nl] ++ lit "</ul>" ++ [c_nl]).
Proof.
  cbv zeta. split; [|split].
  - exists 9. eexists [_; _; _; _; _]. split; vm_compute; reflexivity.
  - intros [[r E]|(k & r & _ & E)]; [discriminate E|]. destruct k as [|[|k]]; discriminate E.
  - split; [|split]; exists 9; vm_compute; reflexivity.
Qed.
Lemma sections_prose s q hs x : forallb calm s = true -> ~ infix (lit "    ") s -> s = q ++ [c_nl; c_nl] ->
  ~ indented x -> renders s hs ->
  (forall hx, renders x hx -> exists out, renders (s ++ x) out /\ joined hs hx out) /\
  (forall out, renders (s ++ x) out -> exists hx, renders x hx /\ joined hs hx out) /\
  (crashes (s ++ x) <-> crashes x) /\ (runs_forever (s ++ x) <-> runs_forever x).
Proof. intros C I Q D R. apply sections_alone; [|exact D|exact R]. eapply calm_closed; eassumption. Qed.
Lemma prose_ex :
  let s := lit "# On prose" ++ [c_nl; c_nl] ++ lit "Words, words!  More (of them)." ++ [c_nl; c_nl] in
  forallb calm s = true /\ ~ infix (lit "    ") s.
Proof.
  cbv zeta. split; [vm_compute; reflexivity|]. intros H. apply contains_iff in H. vm_compute in H. discriminate H.
Qed.

(** ** Any number of sections *)
Lemma not_indented_app s r : ~ indented s -> In c_nl s -> ~ indented (s ++ r).
Proof.
  intros D N H. apply D. apply in_split in N as (a & b & ->). unfold indented in *.
  assert (G : forall k c u, c <> c_nl -> (a ++ c_nl :: b) ++ r = crep k c_sp ++ c :: u -> exists u', a ++ c_nl :: b = crep k c_sp ++ c :: u').
  { clear. intros k. revert a. induction k as [|k IH]; intros a c u C E.
    - cbn [crep repeat app] in *. destruct a as [|x a]; cbn [app] in *.
      + injection E as E _. congruence.
      + injection E as -> E. eauto.
    - change (crep (S k) c_sp) with (c_sp :: crep k c_sp) in *. destruct a as [|x a]; cbn [app] in *; [discriminate E|].
      injection E as -> E. destruct (IH a c u C E) as [u' ->]. eauto. }
  destruct H as [[u E]|(k & u & K & E)].
  - left. destruct (G 3 c_sp u) as [u' ->]; [discriminate|exact E|]. now exists u'.
  - right. destruct (G k c_tab u) as [u' ->]; [discriminate|exact E|]. now exists k, u'.
Qed.
(** The outputs [hs] of sections and the one behind them, put together. *)
Fixpoint all_joined (hs : list str) (hx out : str) : Prop :=
  match hs with
  | [] => out = hx
  | h :: hs' => exists mid, all_joined hs' hx mid /\ joined h mid out
  end.
Theorem many_sections ss hs x : Forall2 renders ss hs -> Forall closed_section ss ->
  Forall (fun s => ~ indented s /\ In c_nl s) ss -> ~ indented x ->
  (forall hx, renders x hx -> exists out, renders (concat ss ++ x) out /\ all_joined hs hx out) /\
  (forall out, renders (concat ss ++ x) out -> exists hx, renders x hx /\ all_joined hs hx out) /\
  (crashes (concat ss ++ x) <-> crashes x) /\ (runs_forever (concat ss ++ x) <-> runs_forever x).
Proof.
  intros F. induction F as [|s h ss hs R F IH]; intros C D X.
  - cbn [concat app all_joined]. repeat split; try tauto; eauto.
  - inversion C as [|? ? C1 C2]; subst. inversion D as [|? ? [D1 D2] D3]; subst.
    destruct (IH C2 D3 X) as (A1 & A2 & A3 & A4). clear IH.
    assert (X' : ~ indented (concat ss ++ x)).
    { inversion D3 as [|t ? [E1 E2] ?]; subst; [exact X|]. cbn [concat]. rewrite <- app_assoc. now apply not_indented_app. }
    destruct (sections_alone s (concat ss ++ x) h C1 X' R) as (B1 & B2 & B3 & B4).
    cbn [concat all_joined]. rewrite <- app_assoc. split; [|split; [|split]].
    + intros hx Hx. destruct (A1 hx Hx) as (mid & M & J). destruct (B1 mid M) as (out & O & K). eauto.
    + intros out O. destruct (B2 out O) as (mid & M & K). destruct (A2 mid M) as (hx & Hx & J). eauto.
    + now rewrite B3.
    + now rewrite B4.
Qed.
Theorem many_sections_text hs hx out : all_joined hs hx out -> filter not_nl out = filter not_nl (concat hs ++ hx).
Proof.
  revert out. induction hs as [|h hs IH]; intros out; cbn [all_joined concat].
  - now intros ->.
  - intros (mid & M & J). rewrite (joined_filter _ _ _ J), filter_app, (IH mid M), <- app_assoc. now rewrite !filter_app.
Qed.
Lemma many_ex :
  let ss := [lit "# a" ++ [c_nl; c_nl]; lit "b" ++ [c_nl; c_nl]; lit "## c" ++ [c_nl] ++ lit "d" ++ [c_nl; c_nl]] in
  Forall closed_section ss /\ Forall (fun s => ~ indented s /\ In c_nl s) ss.
Proof.
  assert (G : forall s, contains (lit "  ") s = false -> contains_char c_tab s = false -> ~ indented s).
  { intros s A B [[r ->]|(k & r & _ & ->)].
    - discriminate A.
    - assert (contains_char c_tab (crep k c_sp ++ c_tab :: r) = true); [|congruence].
      unfold contains_char. apply existsb_exists. exists c_tab. split; [apply in_or_app; right; now left|reflexivity]. }
  cbv zeta. split.
  - repeat (constructor; [exists 9; first [eexists [_]; split; [vm_compute; reflexivity|reflexivity]
      | eexists [_; _]; split; [vm_compute; reflexivity|reflexivity]
      | eexists [_; _; _]; split; [vm_compute; reflexivity|reflexivity]]|]). constructor.
  - repeat (constructor; [split; [apply G; reflexivity|vm_compute; tauto]|]). constructor.
Qed.
