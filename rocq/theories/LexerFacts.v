(** * LexerFacts: every token consumes input, and its texts come from the input.

    [tok_ok OK PH t]: all texts inside token [t] satisfy [OK], heading texts come
    from an html that satisfies [PH], links from an accepted destination.  The
    main result is [next_token_ok]: if [OK] is closed under taking substrings and
    holds of the cursor then it holds of the texts of the token produced, and
    the new cursor is a strict suffix of the old one. *)
From Coq Require Import Ascii String.
From Verif Require Import Strings StringsFacts Token Iter Lexer.
Open Scope list_scope.

(** ** Iterator facts *)
Lemma next_if_eq_some c r r' : next_if_eq c r = Some r' -> r = c :: r'.
Proof.
  destruct r as [|x r]; cbn; [easy|]. destruct (ceq x c) eqn:E; [|easy].
  apply ceq_eq in E as ->. now injection 1 as ->.
Qed.
Lemma peek_is_true c r : peek_is c r = true -> exists r', r = c :: r'.
Proof.
  destruct r as [|x r]; cbn; [easy|]. intros E; apply ceq_eq in E as ->. eauto.
Qed.
Lemma skip_if_eq_suffix c r : suffix (skip_if_eq c r) r.
Proof.
  unfold skip_if_eq. destruct (next_if_eq c r) eqn:E; [|apply suffix_refl].
  apply next_if_eq_some in E as ->. apply suffix_cons.
Qed.
Lemma substring_from_app x r : substring_from (x ++ r) r = x.
Proof.
  unfold substring_from. rewrite app_length, Nat.add_sub.
  rewrite firstn_app, Nat.sub_diag, firstn_all. cbn. apply app_nil_r.
Qed.
Lemma substring_from_infix r r' : infix (substring_from r r') r.
Proof. apply infix_firstn. Qed.

Lemma consume_until_tail_go_app tail acc r a r' :
  consume_until_tail_go tail acc r = (a, r') -> acc ++ r = a ++ r' /\ suffix r' r.
Proof.
  revert acc; induction r as [|c r IH]; intros acc; cbn.
  - injection 1 as <- <-. split; [auto | apply suffix_refl].
  - destruct (ends_with tail acc).
    + injection 1 as <- <-. split; [auto | apply suffix_refl].
    + intros H. destruct (IH _ H) as [E S]. rewrite <- app_assoc in E. split; [auto|].
      eapply suffix_trans; [exact S | apply suffix_cons].
Qed.
Lemma consume_until_tail_app tail r a r' :
  consume_until_tail_is tail r = (a, r') -> r = a ++ r'.
Proof. intros H. now apply consume_until_tail_go_app in H as [H _]. Qed.

Lemma split_line_app r a b : split_line r = (a, b) -> r = a ++ b.
Proof.
  unfold split_line. destruct (split_once c_nl r) as [[x y]|] eqn:E.
  - apply split_once_some in E as [-> _]. injection 1 as <- <-.
    now rewrite <- app_assoc.
  - injection 1 as <- <-. now rewrite app_nil_r.
Qed.

Lemma ssuffix_drop_while f c r : f c = true -> ssuffix (drop_while f (c :: r)) (c :: r).
Proof.
  intros H. cbn. rewrite H. destruct (suffix_drop_while f r) as [x E].
  exists c, x. now rewrite <- E.
Qed.

(** Walk down a chain of cursor operations. *)
Ltac suf :=
  repeat match goal with
  | |- suffix ?x ?x => apply suffix_refl
  | |- suffix [] _ => apply suffix_nil
  | |- suffix ?x (_ :: ?x) => apply suffix_cons
  | H : suffix ?x ?y |- suffix ?x ?y => exact H
  | H : ssuffix ?x ?y |- ssuffix ?x ?y => exact H
  | H : ssuffix ?x ?y |- suffix ?x ?y => exact (ssuffix_suffix _ _ H)
  | |- ssuffix (drop_while ?f ?x) ?y => apply ssuffix_trans_r with x; [apply suffix_drop_while|]
  | |- ssuffix (next ?x) ?y => apply ssuffix_trans_r with x; [apply suffix_tl|]
  | |- ssuffix (tl ?x) ?y => apply ssuffix_trans_r with x; [apply suffix_tl|]
  | |- ssuffix (skip_while _ ?x) ?y => apply ssuffix_trans_r with x; [apply suffix_drop_while|]
  | |- ssuffix (skip_if_eq _ ?x) ?y => apply ssuffix_trans_r with x; [apply skip_if_eq_suffix|]
  | |- suffix (drop_while ?f ?x) ?y => apply suffix_trans with x; [apply suffix_drop_while|]
  | |- suffix (next ?x) ?y => apply suffix_trans with x; [apply suffix_tl|]
  | |- suffix (tl ?x) ?y => apply suffix_trans with x; [apply suffix_tl|]
  | |- suffix (skip_while _ ?x) ?y => apply suffix_trans with x; [apply suffix_drop_while|]
  | |- suffix (skip_if_eq _ ?x) ?y => apply suffix_trans with x; [apply skip_if_eq_suffix|]
  | H : ?y = ?a ++ ?x |- suffix ?x ?z => apply suffix_trans with y; [exists a; exact H|]
  | H : ?y = ?a ++ ?x |- ssuffix ?x ?z => apply ssuffix_trans_r with y; [exists a; exact H|]
  | H : ?y = _ :: ?x |- suffix ?x ?z => apply suffix_trans with y; [rewrite H; apply suffix_cons|]
  | H : ?y = _ :: ?x |- ssuffix ?x ?y => rewrite H; apply ssuffix_cons
  | H : ?y = _ :: ?x |- ssuffix ?x ?z => apply ssuffix_trans_r with y; [rewrite H; apply suffix_cons|]
  | H : suffix ?x ?y |- suffix ?x ?z => apply suffix_trans with y; [exact H|]
  | H : suffix ?x ?y |- ssuffix ?x ?z => apply ssuffix_trans_r with y; [exact H|]
  end.

(** ** Token predicates *)
Definition opt_ok (OK : str -> Prop) (o : option str) : Prop :=
  match o with Some t => OK t | None => True end.
(** A link or image ([pre] is empty or '!') as it is written, up to the ')' after
    its destination [src], or up to the end of its hover text, and an autolink. *)
Definition dest_end (src : str) (h : option str) (c : char) (e : str) : Prop :=
  ~ In c_rpar src /\ ~ In c_sp src /\
  ((c = c_rpar /\ e = [] /\ h = None) \/ (c = c_sp /\ ~ In c_rpar e /\ h = Some (c_sp :: e))).
Definition link_at (OK : str -> Prop) (pre t : str) (u : valid_url) (h : option str) : Prop :=
  exists src c e, validate_link src = inl u /\ ~ In c_rbrk t /\ dest_end src h c e /\
    OK (pre ++ c_lbrk :: t ++ lit "](" ++ src ++ c :: e).
Definition auto_at (OK : str -> Prop) (u : valid_url) : Prop :=
  exists src, validate_link src = inl u /\ ~ In c_gt src /\ OK (c_lt :: src ++ [c_gt]).
Definition heading_text (PH : str -> Prop) (t : str) : Prop :=
  t = [] \/ exists h, PH h /\ t = heading_unwrap h.

Definition seen (OK : str -> Prop) (c : char) : Prop := exists r, OK r /\ In c r.

(** Something that looks like the box of a task. *)
Definition boxed (r : str) : Prop :=
  infix (lit "[ ] ") r \/ infix (lit "[x] ") r \/ infix (lit "[X] ") r.
Definition seen_box (OK : str -> Prop) : Prop := exists r, OK r /\ boxed r.

(** Something that may become a bullet, the number of a list item, or code. *)
Definition bulleted (r : str) : Prop :=
  In c_minus r \/ In c_plus r \/ infix (lit "* ") r \/ infix (lit "_ ") r.
Definition seen_bullet (OK : str -> Prop) : Prop := exists r, OK r /\ bulleted r.
Definition seen_number (OK : str -> Prop) : Prop :=
  exists r d, OK r /\ is_digit d = true /\ infix (d :: lit ". ") r.
Definition coded (r : str) : Prop := In c_tick r \/ In c_tab r \/ infix (lit "    ") r.
Definition seen_code (OK : str -> Prop) : Prop := exists r, OK r /\ coded r.

(** One level: [OK] for texts that are substrings of the source, [SOK] for those
    which are shorter than it, [CH] for the tokens inside a token, [PH] for html
    from which heading texts are taken. *)
Inductive tok1 (OK SOK PH : str -> Prop) (CH : token -> Prop) : token -> Prop :=
| t1_plain t : OK t -> tok1 OK SOK PH CH (Plaintext t)
| t1_header n t : 1 <= n <= 6 -> seen OK c_hash -> PH [] -> heading_text PH t -> tok1 OK SOK PH CH (Header n t None)
| t1_ul toks : seen_bullet OK -> Forall CH toks -> tok1 OK SOK PH CH (UnorderedListEntry toks)
| t1_ol t : seen_number OK -> OK t -> tok1 OK SOK PH CH (OrderedListEntry t)
| t1_italic t : OK t -> tok1 OK SOK PH CH (Italic t)
| t1_bold t : OK t -> tok1 OK SOK PH CH (Bold t)
| t1_bi t : OK t -> tok1 OK SOK PH CH (BoldItalic t)
| t1_br : tok1 OK SOK PH CH LineBreak
| t1_nl : seen OK c_nl -> tok1 OK SOK PH CH Newline
| t1_hr : tok1 OK SOK PH CH HorizontalRule
| t1_strike t : OK t -> tok1 OK SOK PH CH (Strikethrough t)
| t1_code t : seen_code OK -> OK t -> tok1 OK SOK PH CH (Code t)
| t1_code_tab t : seen_code OK -> OK t -> tok1 OK SOK PH CH (Code (c_tab :: t))
| t1_block t l : seen_code OK -> OK t -> tok1 OK SOK PH CH (CodeBlock t l)
| t1_quote n t : n < 256 -> SOK t -> seen OK c_gt ->
    tok1 OK SOK PH CH (BlockQuote n t)
| t1_image u t : seen OK c_bang -> seen OK c_lbrk -> (exists h, link_at OK [c_bang] t u h) -> OK t -> tok1 OK SOK PH CH (Image (url_content u) (Some t))
| t1_link u t h : seen OK c_lbrk -> link_at OK [] t u h -> OK t -> opt_ok OK h -> tok1 OK SOK PH CH (Link u (Some t) h)
| t1_auto u : seen OK c_lt -> auto_at OK u -> url_scheme u <> None -> tok1 OK SOK PH CH (Link u None None)
| t1_detail s toks : seen OK c_lt -> OK s -> Forall CH toks -> tok1 OK SOK PH CH (Detail s toks)
| t1_table hs rows : seen OK c_pipe -> rows <> [] -> Forall (fun h => OK (snd h)) hs ->
    Forall (Forall (fun c => Forall CH (snd c))) rows -> tok1 OK SOK PH CH (Table hs rows)
| t1_task c t : seen_box OK -> seen_bullet OK -> OK t -> tok1 OK SOK PH CH (TaskListItem c t)
| t1_note i t : seen OK c_lbrk -> OK i -> OK t -> tok1 OK SOK PH CH (Footnote i t).

(** All levels. *)
Inductive tok_ok (OK PH : str -> Prop) : token -> Prop :=
| ok_level t : tok1 OK OK PH (tok_ok OK PH) t -> tok_ok OK PH t.

Section Tok.
Variables (OK SOK PH : str -> Prop) (CH : token -> Prop).
Local Notation tok_ok := (tok1 OK SOK PH CH).

(** The cursor moved forward and the texts are fine. *)
Definition lres_ok (r : cursor) (l : lres) : Prop :=
  match l with
  | LOk t r' => ssuffix r' r /\ tok_ok t
  | LErr c r' => ssuffix r' r /\ OK c
  end.

Hypothesis OK_infix : forall a s, infix a s -> OK s -> OK a.
Hypothesis OK_eof : OK (lit "EOF").
Hypothesis OK_nonlink : OK (lit "Non link token returned from lex_links").
Hypothesis SOK_sub : forall r r' a, OK r -> ssuffix r' r -> infix a r' -> SOK a.
Hypothesis CH_plain : forall t, SOK t -> CH (Plaintext t).

Lemma OK_sub r a r' : OK r -> suffix r' r -> infix a r' -> OK a.
Proof.
  intros H S I. apply (OK_infix _ _ (infix_trans _ _ _ I (suffix_infix _ _ S)) H).
Qed.

Ltac inf :=
  repeat match goal with
  | |- infix ?x ?x => apply infix_refl
  | |- infix [] _ => apply infix_nil
  | |- infix [?c] (?c :: ?r) => now exists [], r
  | |- infix (take_while _ _) _ => apply infix_take_while
  | |- infix (substring_from _ _) _ => apply substring_from_infix
  | |- infix (trim ?s) _ => apply infix_trans with s; [apply infix_trim|]
  | |- infix (trim_start_by _ ?s) _ => apply infix_trans with s; [apply infix_trim_start_by|]
  | |- infix (trim_end_by _ ?s) _ => apply infix_trans with s; [apply infix_trim_end_by|]
  | |- infix (trim_end_matches _ ?s) _ =>
      apply infix_trans with s; [apply infix_trim_end_matches|]
  | |- infix (skipn _ ?s) _ => apply infix_trans with s; [apply infix_skipn|]
  | |- infix (or_empty (strip_prefix _ ?s)) _ =>
      apply infix_trans with s; [apply infix_or_empty_prefix|]
  | |- infix (or_empty (strip_suffix _ ?s)) _ =>
      apply infix_trans with s; [apply infix_or_empty_suffix|]
  end.
(** [ok r0]: the text is an infix of cursor [r0], a suffix of an OK one. *)
Ltac ok r0 := match goal with H : OK ?r |- OK _ => apply (OK_sub r _ r0 H); [suf; fail | inf; fail] end.

Section Fns.
Variable LEX : str -> list char -> res (list token).
Variable RENDER : str -> list char -> res str.
Hypothesis LEX_ok : forall s ig toks, SOK s -> LEX s ig = Ret toks -> Forall CH toks.
Variable IG : list char.
Hypothesis RENDER_ok : mem_char c_hash IG = false ->
  PH [] /\ forall s h, SOK s -> ~ In c_nl s -> RENDER s [c_hash] = Ret h -> PH h.

Lemma heading_sep_suffix r r' : heading_sep r = Some r' -> suffix r' r.
Proof.
  unfold heading_sep. destruct (next_if_eq c_sp r) eqn:E1.
  { injection 1 as <-. apply next_if_eq_some in E1. suf. }
  destruct (next_if_eq c_tab r) eqn:E2.
  { injection 1 as <-. apply next_if_eq_some in E2. suf. }
  destruct (peek_is c_nl r); [|easy]. injection 1 as <-. suf.
Qed.
Lemma heading_id_infix line l : heading_id line = Some l -> infix l line.
Proof.
  unfold heading_id. destruct (_ && _).
  - set (h := match split_once c_lbrace line with Some (a, _) => a | None => [] end).
    destruct (strip_prefix h line) as [l1|] eqn:E1; [|easy].
    destruct (strip_prefix (lit "{#") l1) as [l2|] eqn:E2; [|easy].
    intros E3. eapply infix_trans; [eapply infix_strip_suffix, E3|].
    eapply infix_trans; [eapply infix_strip_prefix, E2|]. eapply infix_strip_prefix, E1.
  - injection 1 as <-. apply infix_refl.
Qed.
Lemma heading_trailing_infix line : infix (heading_trailing line) line.
Proof.
  unfold heading_trailing.
  destruct (rsplit_once c_sp (trim_end line)) as [[a b]|] eqn:E; [|apply infix_refl].
  destruct (forallb _ b); [|apply infix_refl].
  apply infix_trans with (trim_end line); [|apply infix_trim_end].
  apply rsplit_once_some in E as [-> _]. now exists [], (c_sp :: b).
Qed.

Lemma lex_heading_ok r0 l :
  mem_char c_hash IG = false -> OK (c_hash :: r0) -> lex_heading RENDER (c_hash :: r0) = Ret l ->
  lres_ok (c_hash :: r0) l.
Proof.
  intros MI H. destruct (RENDER_ok MI) as [PN PR]. unfold lex_heading, consume_while.
  assert (SH : seen OK c_hash) by (exists (c_hash :: r0); split; [exact H | now left]).
  set (r := c_hash :: r0) in *.
  assert (S1 : ssuffix (drop_while (ceq c_hash) r) r) by (apply ssuffix_drop_while, ceq_refl).
  assert (L1 : 1 <= length (take_while (ceq c_hash) r)).
  { subst r. cbn. lia. }
  assert (O1 : OK (take_while (ceq c_hash) r)) by ok r.
  set (h := take_while (ceq c_hash) r) in *.
  set (r1 := drop_while (ceq c_hash) r) in *.
  clearbody h r1.
  destruct (6 <? length h) eqn:L6.
  { injection 1 as <-. split; auto. }
  apply Nat.ltb_ge in L6.
  destruct (heading_sep r1) as [r2|] eqn:E.
  2:{ injection 1 as <-. split; auto. }
  apply heading_sep_suffix in E.
  destruct (heading_id (take_while not_nl r2)) as [line|] eqn:E2; [|easy].
  apply heading_id_infix in E2.
  destruct (forallb (ceq c_hash) line).
  { injection 1 as <-. split; [suf|]. constructor; [lia | exact SH | auto | now left]. }
  destruct (RENDER _ _) as [html| |] eqn:R; cbn [bind]; try easy.
  injection 1 as <-. split; [suf|]. constructor; [lia|exact SH|auto|]. right.
  exists html. split; [|auto].
  assert (IL : infix (trim_end_by is_sp_tab (heading_trailing line)) (take_while not_nl r2)).
  { inf. eapply infix_trans; [apply heading_trailing_infix|]. exact E2. }
  eapply PR; [| |exact R].
  - apply (SOK_sub r r2); [auto | suf |]. eapply infix_trans; [exact IL|]. apply infix_take_while.
  - intros I. eapply infix_In in I; [|exact IL]. pose proof (take_while_forall not_nl r2) as F.
    apply (proj1 (forallb_forall _ _) F) in I. discriminate.
Qed.

Lemma lex_newlines_ok r0 : OK (c_nl :: r0) -> lres_ok (c_nl :: r0) (lex_newlines (c_nl :: r0)).
Proof.
  intros H. unfold lex_newlines, consume_while. set (r := c_nl :: r0) in *.
  assert (S1 : ssuffix (drop_while (ceq c_nl) r) r) by (apply ssuffix_drop_while, ceq_refl).
  destruct (2 <=? _); split; try exact S1; [constructor | ok r].
  exists r. split; [exact H | now left].
Qed.

Lemma lex_tabs_spaces_go_ok n last r l :
  OK r -> (exists c r0, r = c :: r0 /\ is_sp_tab c = true) ->
  lex_tabs_spaces_go n last r = Some l -> lres_ok r l.
Proof.
  revert r l; induction n as [|n IH]; intros r l H (c & r0 & E & Hc); [easy|].
  cbn [lex_tabs_spaces_go]. unfold consume_while.
  assert (S1 : ssuffix (drop_while is_sp_tab r) r) by (subst; now apply ssuffix_drop_while).
  assert (SW : infix (lit "    ") (take_while is_sp_tab r) \/ In c_tab (take_while is_sp_tab r) -> seen_code OK).
  { intros J. exists r. split; [exact H|]. unfold coded. destruct J as [J|J].
    - right. right. eapply infix_trans; [exact J | apply infix_take_while].
    - right. left. eapply infix_In; [apply infix_take_while | exact J]. }
  set (ws := take_while is_sp_tab r) in *. set (r1 := drop_while is_sp_tab r) in *.
  destruct (_ && _ && _).
  { injection 1 as <-. split; [suf | subst ws; ok r]. }
  destruct (_ && _ && _).
  { injection 1 as <-. split; [suf | constructor]. }
  destruct (consume_until_tail_is [c_nl] r1) as [line r2] eqn:EL.
  apply consume_until_tail_app in EL.
  assert (OL : OK line).
  { apply (OK_sub r _ r1 H); [suf|]. rewrite EL. now exists [], r2. }
  destruct (_ && _ && _).
  { injection 1 as <-. split; [suf | auto]. }
  destruct (_ || _ || _) eqn:EW.
  { injection 1 as <-. split; [suf | constructor; auto]. apply SW.
    apply orb_true_iff in EW as [EW|EW]; [apply orb_true_iff in EW as [EW|EW]|]; apply str_eqb_eq in EW as ->.
    - right. now left.
    - left. apply infix_refl.
    - right. do 2 right. now left. }
  destruct (str_eqb ws [c_tab; c_tab]) eqn:EX.
  { injection 1 as <-. split; [suf | apply t1_code_tab; auto]. apply SW. apply str_eqb_eq in EX as ->. right. now left. }
  clear EW EX. destruct (_ || _) eqn:PK.
  - assert (exists c r0, r2 = c :: r0 /\ is_sp_tab c = true) as X.
    { apply orb_true_iff in PK as [PK|PK]; apply peek_is_true in PK as [q ->];
        do 2 eexists; (split; [reflexivity|]); reflexivity. }
    assert (OK r2) as O2 by (apply (OK_sub r _ r2 H); [suf | inf]).
    destruct (lex_tabs_spaces_go n last r2) as [[t r3|e r3]|] eqn:R; [| |easy].
    + destruct (IH _ _ O2 X R) as [S3 T3].
      apply ssuffix_suffix in S3.
      assert (D : (exists a b, t = CodeBlock a b) \/
        match t with CodeBlock _ _ => false | _ => true end = true).
      { destruct t; eauto. }
      destruct D as [(a & b & ->)|D].
      * injection 1 as <-. split; [suf|]. constructor; [|ok r].
        inversion T3; auto.
      * intros Q. assert (l = LErr [] r3) as ->.
        { destruct t; try discriminate D; now injection Q as <-. }
        split; [suf|]. ok r.
    + destruct (IH _ _ O2 X R) as [S3 T3]. apply ssuffix_suffix in S3.
      injection 1 as <-. split; [suf | auto].
  - injection 1 as <-. split; [suf|]. ok r.
Qed.

Lemma lex_tabs_spaces_ok last c r0 l :
  is_sp_tab c = true -> OK (c :: r0) -> lex_tabs_spaces last (c :: r0) = Ret l ->
  lres_ok (c :: r0) l.
Proof.
  unfold lex_tabs_spaces. intros Hc H.
  destruct (lex_tabs_spaces_go _ _ _) eqn:E; [|easy]. injection 1 as <-.
  eapply lex_tabs_spaces_go_ok; eauto.
Qed.

Lemma lex_numbers_ok c r0 l :
  is_digit c = true -> OK (c :: r0) -> lex_numbers (c :: r0) = Ret l -> lres_ok (c :: r0) l.
Proof.
  intros DG H. cbn [lex_numbers].
  assert (S0 : ssuffix r0 (c :: r0)) by apply ssuffix_cons.
  destruct (next_if_eq c_dot r0) as [r2|] eqn:E1.
  - apply next_if_eq_some in E1.
    destruct (next_if_eq c_sp r2) as [r3|] eqn:E2.
    + apply next_if_eq_some in E2. unfold consume_while.
      injection 1 as <-. split; [suf|]. constructor; [|ok r3].
      exists (c :: r0), c. split; [exact H|]. split; [exact DG|]. rewrite E1, E2. now exists [], r3.
    + injection 1 as <-. split; [suf|]. ok (c :: r0).
  - injection 1 as <-. split; [suf|]. ok (c :: r0).
Qed.

Lemma lex_escaped_ok c r0 :
  OK (c :: r0) -> lres_ok (c :: r0) (lex_escaped_character (c :: r0)).
Proof.
  intros H. unfold lex_escaped_character. cbn [next tl].
  assert (S0 : ssuffix r0 (c :: r0)) by apply ssuffix_cons.
  destruct r0 as [|d r2]; [split; auto|].
  destruct (ceq d c_hash).
  - unfold consume_while. split; [suf|]. constructor. ok (d :: r2).
  - split; [suf|]; [| constructor; ok (d :: r2)].
    eapply ssuffix_trans_r; [apply suffix_cons|]. exact S0.
Qed.

Lemma lex_strong_ok n mk r r1 :
  (forall t, OK t -> tok_ok (mk t)) -> OK r -> ssuffix r1 r -> lres_ok r (lex_strong n mk r r1).
Proof.
  intros M H S. unfold lex_strong, consume_while.
  destruct (_ =? n); (split; [suf|]); [apply M; ok r1 | ok r].
Qed.

Lemma lex_asterisk_ok c r0 :
  is_star_under c = true -> OK (c :: r0) ->
  lres_ok (c :: r0) (lex_asterisk_underscore (c :: r0)).
Proof.
  intros Hc H. unfold lex_asterisk_underscore, consume_while.
  set (f := fun c => ceq c c_star || ceq c c_under || ceq c c_tab).
  assert (Hf : f c = true). { unfold f. unfold is_star_under in Hc. now rewrite Hc. }
  set (r := c :: r0) in *.
  assert (S1 : ssuffix (drop_while f r) r) by now apply ssuffix_drop_while.
  set (a := take_while f r). set (r1 := drop_while f r) in *.
  destruct (if length a =? 1 then next_if_eq c_sp r1 else None) as [r2|] eqn:E.
  - destruct (length a =? 1) eqn:LA; [|easy]. apply next_if_eq_some in E.
    split; [suf|]. constructor; [|constructor; [|constructor]; apply CH_plain; apply (SOK_sub r r2 _ H); [suf | inf]].
    exists r. split; [exact H|]. right. right. unfold is_star_under in Hc.
    assert (R : r = [c] ++ c_sp :: r2).
    { rewrite <- E. subst r1. rewrite <- (take_drop f r) at 1. f_equal. fold a.
      assert (A : a = c :: take_while f r0) by (subst a r; cbn [take_while]; now rewrite Hf).
      rewrite A in LA |- *. destruct (take_while f r0); [reflexivity | discriminate LA]. }
    rewrite R. apply orb_true_iff in Hc as [Hc|Hc]; apply ceq_eq in Hc as ->; [left|right]; now exists [], r2.
  - destruct (_ && _). { split; [suf | constructor]. }
    destruct (length a) as [|[|[|[|k]]]] eqn:LA.
    + destruct (_ || _); (split; [suf|]); [constructor | subst a; ok r].
    + split; [suf|]. constructor. ok r1.
    + apply lex_strong_ok; auto. now constructor.
    + apply lex_strong_ok; auto. now constructor.
    + destruct (_ || _); (split; [suf|]); [constructor | subst a; ok r].
Qed.

Lemma lex_blockquotes_ok r0 :
  OK (c_gt :: r0) -> lres_ok (c_gt :: r0) (lex_blockquotes (c_gt :: r0)).
Proof.
  intros H. unfold lex_blockquotes, consume_while. set (r := c_gt :: r0) in *.
  assert (S1 : ssuffix (drop_while (ceq c_gt) r) r) by (apply ssuffix_drop_while, ceq_refl).
  destruct (_ || _); (split; [suf|]).
  - constructor; [apply Nat.mod_upper_bound; easy | | exists r; split; [auto | now left]].
    apply (SOK_sub r (drop_while (ceq c_gt) r) _ H S1). inf.
  - ok r.
Qed.

Lemma list_paragraphs_ok n r toks r' R :
  OK R -> ssuffix r R -> list_paragraphs n r = Some (toks, r') ->
  suffix r' r /\ Forall CH toks.
Proof.
  intros H. revert r toks r'; induction n as [|n IH]; intros r toks r' S; [easy|].
  cbn [list_paragraphs].
  destruct (ahead_is _ r).
  - unfold consume_while. set (r3 := next (next (next r))).
    assert (S3 : suffix r3 r) by (subst r3; suf).
    destruct (list_paragraphs n _) as [[ts r2]|] eqn:E; [|easy].
    injection 1 as <- <-. apply IH in E as [S2 T]; [|suf].
    split; [suf|]. constructor; [|auto]. apply CH_plain. apply (SOK_sub R r3 _ H); [suf | inf].
  - injection 1 as <- <-. split; [suf | constructor].
Qed.

Lemma list_item_ok line toks r4 r l :
  seen_bullet OK -> OK r -> OK line -> Forall CH toks -> ssuffix r4 r ->
  list_item_token LEX line toks r4 = Ret l -> lres_ok r l.
Proof.
  intros SBU H HL HT S. unfold list_item_token.
  assert (O5 : OK (skipn 5 line)) by (apply (OK_infix _ _ (infix_skipn _ _) HL)).
  assert (SI : forall b, starts_with (c_sp :: b) line = true -> infix b line).
  { intros b E. apply starts_with_iff in E as [z E]. exists [c_sp], z. exact E. }
  destruct (starts_with (lit " [ ] ") line) eqn:E1.
  { injection 1 as <-. split; [auto | constructor; [|auto|auto]].
    exists line. split; [exact HL|]. left. exact (SI _ E1). }
  destruct (starts_with (lit " [x] ") line || starts_with (lit " [X] ") line) eqn:E2.
  { apply orb_true_iff in E2. injection 1 as <-. split; [auto | constructor; [|auto|auto]].
    exists line. split; [exact HL|]. destruct E2 as [E2|E2]; right; [left|right]; exact (SI _ E2). }
  clear E1 E2. destruct (peek_line_ahead r4) as [pl|].
  2:{ injection 1 as <-. split; [auto | constructor; auto]. }
  unfold consume_line_ahead.
  destruct (split_line r4) as [sub r5] eqn:E. apply split_line_app in E.
  assert (IS : infix sub r4) by (rewrite E; now exists [], r5).
  destruct (starts_with _ pl).
  { destruct (LEX sub []) as [st| |] eqn:L; cbn [bind]; try easy.
    injection 1 as <-. split; [suf|]. constructor; [auto|]. apply Forall_app; split; [auto|].
    eapply LEX_ok; [|eauto]. apply (SOK_sub r r4 _ H S IS). }
  destruct (starts_with _ pl).
  { destruct (LEX (skipn 1 sub) []) as [st| |] eqn:L; cbn [bind]; try easy.
    injection 1 as <-. split; [suf|]. constructor; [auto|]. apply Forall_app; split; [auto|].
    eapply LEX_ok; [|eauto]. apply (SOK_sub r r4 _ H S).
    eapply infix_trans; [apply infix_skipn | exact IS]. }
  injection 1 as <-. split; [auto | constructor; auto].
Qed.

Lemma lex_plus_minus_ok c r0 l :
  ceq c c_minus || ceq c c_plus = true -> OK (c :: r0) ->
  lex_plus_minus LEX (c :: r0) = Ret l -> lres_ok (c :: r0) l.
Proof.
  intros Hc H. unfold lex_plus_minus, consume_while.
  set (f := fun c => ceq c c_minus || ceq c c_plus). set (r := c :: r0) in *.
  assert (S1 : ssuffix (drop_while f r) r) by now apply ssuffix_drop_while.
  assert (L1 : 1 <= length (take_while f r)).
  { subst r. cbn [take_while]. unfold f at 1. rewrite Hc. cbn. lia. }
  set (s := take_while f r) in *. set (r1 := drop_while f r) in *.
  destruct (length s) as [|[|[|k]]]; [lia | | |].
  - set (r2 := drop_while not_nl r1).
    assert (S2 : suffix r2 r1) by (subst r2; suf).
    destruct (list_paragraphs _ r2) as [[more r3]|] eqn:E; [|easy].
    apply (list_paragraphs_ok _ _ _ _ r) in E as [S3 T3]; [|auto|suf].
    apply list_item_ok; auto.
    + exists r. split; [exact H|]. subst r. unfold bulleted.
      apply orb_true_iff in Hc as [Hc|Hc]; apply ceq_eq in Hc as ->; [left | right; left]; now left.
    + apply (OK_sub r _ r1 H); [suf | inf].
    + constructor; [|auto]. apply CH_plain. apply (SOK_sub r r1 _ H); [suf | inf].
    + suf.
  - injection 1 as <-. split; [suf | ok r].
  - injection 1 as <-. split; [suf | constructor].
Qed.

Lemma lex_tilde_ok r0 : OK (c_tilde :: r0) -> lres_ok (c_tilde :: r0) (lex_tilde (c_tilde :: r0)).
Proof.
  intros H. unfold lex_tilde, consume_while. set (r := c_tilde :: r0) in *.
  assert (S1 : ssuffix (drop_while (ceq c_tilde) r) r) by (apply ssuffix_drop_while, ceq_refl).
  set (lead := take_while (ceq c_tilde) r). set (r1 := drop_while (ceq c_tilde) r) in *.
  assert (O1 : OK lead) by (subst lead; ok r).
  destruct (length lead) as [|[|[|k]]]; try (split; [suf | auto]; fail).
  destruct (2 =? _); (split; [suf|]); [constructor; ok r1 | ok r].
Qed.

Lemma lex_backticks_ok r0 : OK (c_tick :: r0) -> lres_ok (c_tick :: r0) (lex_backticks (c_tick :: r0)).
Proof.
  intros H. unfold lex_backticks, consume_while. set (r := c_tick :: r0) in *.
  assert (S1 : ssuffix (drop_while (ceq c_tick) r) r) by (apply ssuffix_drop_while, ceq_refl).
  assert (SC : seen_code OK) by (exists r; split; [exact H | left; now left]).
  set (lead := take_while (ceq c_tick) r). set (r1 := drop_while (ceq c_tick) r) in *.
  destruct (length lead =? 3).
  - destruct (next_if_eq c_nl r1) as [r2|] eqn:E.
    + apply next_if_eq_some in E.
      destruct (_ =? _); (split; [suf|]); [constructor; [exact SC | ok r2] | ok r].
    + set (r2 := next (drop_while not_nl r1)).
      assert (S2 : suffix r2 r1) by (subst r2; suf).
      destruct (_ =? _); (split; [suf|]); [constructor; [exact SC | ok r2] | ok r].
  - destruct (consume_until_tail_is _ r1) as [s r2] eqn:E.
    apply consume_until_tail_app in E.
    assert (OS : OK s). { apply (OK_sub r _ r1 H); [suf|]. rewrite E. now exists [], r2. }
    destruct (negb _).
    { split; [suf | ok r]. }
    set (s1 := trim_end_matches _ s).
    assert (O1 : OK s1). { apply (OK_infix _ s); [subst s1; inf | auto]. }
    destruct (_ && _); (split; [suf|]); constructor; auto.
    apply (OK_infix _ s1); [inf | auto].
Qed.

Lemma footnote_lines_suffix n r x :
  footnote_lines n r = Some x -> suffix (match x with inl a => a | inr a => a end) r.
Proof.
  revert r x; induction n as [|n IH]; intros r x; [easy|]. cbn [footnote_lines].
  set (r1 := next (drop_while not_nl r)).
  assert (S1 : suffix r1 r) by (subst r1; suf).
  destruct (_ && _). { injection 1 as <-. auto. }
  destruct (next_if_eq c_tab r1) as [r2|] eqn:E.
  - apply next_if_eq_some in E. intros Q. apply IH in Q.
    eapply suffix_trans; [exact Q|]. suf.
  - unfold consume_while. destruct (_ || _).
    + intros Q. apply IH in Q. eapply suffix_trans; [exact Q|]. suf.
    + injection 1 as <-. suf.
Qed.

Lemma validate_link_err s e : validate_link s = inr e -> e = s.
Proof.
  unfold validate_link. destruct (split_scheme s).
  repeat match goal with
  | |- (if ?b then _ else _) = _ -> _ => destruct b
  | |- (match ?x with Some _ => _ | None => _ end) = _ -> _ => destruct x as [[]|]
  end; try discriminate; now injection 1.
Qed.

Lemma link_dest_at title r r0 u t h r' :
  lex_link_dest title r r0 = LOk (Link u (Some t) h) r' ->
  t = title /\ exists src c e rest, validate_link src = inl u /\ dest_end src h c e /\ r0 = src ++ (c :: e) ++ rest.
Proof.
  unfold lex_link_dest, consume_while. set (f := fun c => _).
  pose proof (take_drop f r0) as T. pose proof (take_while_forall f r0) as F.
  pose proof (drop_while_head f r0) as HD. revert T F HD.
  set (link := take_while f r0). set (r1 := drop_while f r0). intros T F HD.
  assert (NF : ~ In c_rpar link /\ ~ In c_sp link).
  { split; intros I; apply (proj1 (forallb_forall _ _) F) in I; discriminate. }
  destruct NF as [NF NS].
  destruct r1 as [|c r1'] eqn:R1; [discriminate|]. rewrite <- R1 in *.
  destruct (next_if_eq c_rpar r1) as [r2|] eqn:E; destruct (validate_link link) as [vl|e] eqn:V; try discriminate.
  - apply next_if_eq_some in E. intros Q. injection Q as -> -> <- _. split; [auto|].
    exists link, c_rpar, [], r2. cbn [app]. rewrite <- E. unfold dest_end. repeat split; auto.
  - assert (C : c = c_sp).
    { rewrite R1 in HD. specialize (HD c r1' eq_refl). rewrite R1 in E. cbn in E.
      subst f. cbn beta in HD. destruct (ceq c c_rpar); [discriminate E|].
      cbn [negb andb] in HD. apply negb_false_iff in HD. now apply ceq_eq. }
    set (g := fun c => negb (ceq c c_rpar)).
    pose proof (take_drop g r1) as T'. pose proof (take_while_forall g r1) as F'.
    assert (G : take_while g r1 = c_sp :: take_while g r1') by now rewrite R1, C.
    intros Q. injection Q as -> -> <- _. split; [auto|].
    exists link, c_sp, (take_while g r1'), (drop_while g r1). rewrite <- G, T'.
    split; [auto|]. split; [|auto]. unfold dest_end. split; [auto|]. split; [auto|]. right. split; [auto|].
    split; [|now rewrite G]. intros J. apply (proj1 (forallb_forall _ _) (take_while_forall g r1')) in J. discriminate.
Qed.
Lemma lex_links_at r u t h r' :
  lex_links r = Ret (LOk (Link u (Some t) h) r') ->
  exists src c e rest, validate_link src = inl u /\ ~ In c_rbrk t /\ dest_end src h c e /\
    r = (c_lbrk :: t ++ lit "](" ++ src ++ c :: e) ++ rest.
Proof.
  unfold lex_links, consume_while.
  destruct (next_if_eq c_lbrk r) as [r1|] eqn:E1; [|discriminate].
  apply next_if_eq_some in E1. set (f := fun c => _).
  pose proof (take_drop f r1) as T. pose proof (take_while_forall f r1) as F. revert T F.
  set (title := take_while f r1). set (r2 := drop_while f r1). intros T F.
  destruct (next_if_eq c_rbrk r2) as [r3|] eqn:E3; [|discriminate]. apply next_if_eq_some in E3.
  destruct (if starts_with [c_caret] title then next_if_eq c_colon r3 else None) as [r4|] eqn:E4.
  - unfold lex_footnote. destruct (footnote_lines _ r4) as [[x|x]|]; [|discriminate..].
    destruct (existsb _ _); discriminate.
  - destruct (next_if_eq c_lpar r3) as [r4|] eqn:E5; [|discriminate]. apply next_if_eq_some in E5.
    intros Q. assert (Q' : lex_link_dest title r r4 = LOk (Link u (Some t) h) r') by congruence.
    apply link_dest_at in Q' as (-> & src & c & e & rest & V & N & R). exists src, c, e, rest.
    split; [auto|]. split; [|split; [auto|]].
    + intros J. apply (proj1 (forallb_forall _ _) F) in J. discriminate.
    + rewrite E1, <- T, E3, E5, R. cbn. rewrite <- !app_assoc. cbn. now rewrite <- !app_assoc.
Qed.

Lemma lex_link_dest_ok title r r0 :
  (forall u h r', lex_link_dest title r r0 = LOk (Link u (Some title) h) r' -> link_at OK [] title u h) ->
  In c_lbrk r -> OK r -> OK title -> ssuffix r0 r -> lres_ok r (lex_link_dest title r r0).
Proof.
  intros HL HB H HT S. revert HL. unfold lex_link_dest, consume_while.
  set (f := fun c => _).
  set (link := take_while f r0). set (r1 := drop_while f r0).
  assert (S1 : suffix r1 r0) by (subst r1; suf).
  assert (OL : OK link) by (subst link; ok r0).
  destruct r1 as [|c r1'] eqn:R1; [split; [suf | ok r]|]. rewrite <- R1 in *.
  destruct (next_if_eq c_rpar r1) as [r2|] eqn:E.
  - apply next_if_eq_some in E.
    destruct (validate_link link) as [vl|e] eqn:V; intros HL; (split; [suf|]).
    + constructor; [now exists r|eapply HL; reflexivity|auto|exact I].
    + apply validate_link_err in V as ->. auto.
  - destruct (validate_link link) as [vl|e] eqn:V; intros HL; (split; [suf|]).
    + constructor; [now exists r|eapply HL; reflexivity|auto|]. cbn. ok r1.
    + apply validate_link_err in V as ->. auto.
Qed.

Lemma lex_footnote_ok title r r0 l :
  In c_lbrk r -> OK r -> OK title -> ssuffix r0 r -> lex_footnote title r r0 = Ret l -> lres_ok r l.
Proof.
  intros HB H HT S. unfold lex_footnote.
  destruct (footnote_lines _ r0) as [[r1|r1]|] eqn:E; [| |easy]; apply footnote_lines_suffix in E.
  - destruct (existsb _ _); injection 1 as <-; (split; [suf|]).
    + ok r.
    + constructor; [now exists r| |].
      * apply (OK_infix _ title); [exact (infix_or_empty_prefix [c_caret] title) | auto].
      * ok r0.
  - injection 1 as <-. split; [suf|]. ok r.
Qed.

Lemma lex_links_ok r0 l :
  OK (c_lbrk :: r0) -> lex_links (c_lbrk :: r0) = Ret l -> lres_ok (c_lbrk :: r0) l.
Proof.
  intros H L0. pose proof L0 as L. revert L. unfold lex_links, consume_while.
  destruct (next_if_eq c_lbrk (c_lbrk :: r0)) as [r1|] eqn:E1.
  2:{ cbn in E1. discriminate. }
  apply next_if_eq_some in E1. set (r := c_lbrk :: r0) in *.
  set (f := fun c => _). set (title := take_while f r1). set (r2 := drop_while f r1).
  assert (S2 : suffix r2 r1) by (subst r2; suf).
  assert (OT : OK title) by (subst title; ok r1).
  destruct (next_if_eq c_rbrk r2) as [r3|] eqn:E3.
  2:{ injection 1 as <-. split; [suf | ok r]. }
  apply next_if_eq_some in E3.
  destruct (if starts_with [c_caret] title then next_if_eq c_colon r3 else None) as [r4|] eqn:E4.
  - destruct (starts_with _ title); [|easy]. apply next_if_eq_some in E4.
    apply lex_footnote_ok; [now left|auto|auto|]. suf.
  - destruct (next_if_eq c_lpar r3) as [r4|] eqn:E5.
    + apply next_if_eq_some in E5. intros L. assert (l = lex_link_dest title r r4) as -> by congruence.
      apply lex_link_dest_ok; [|now left|auto|auto|suf].
      intros u h r' Q. rewrite Q in L0. apply lex_links_at in L0 as (src & c & e & rest & V & N1 & N2 & R).
      exists src, c, e. split; [auto|]. split; [auto|]. split; [auto|]. eapply OK_infix; [|exact H]. subst r. rewrite R. now exists [], rest.
    + injection 1 as <-. split; [suf | ok r].
Qed.

Lemma lex_links_not_bracket r : match r with x :: _ => ceq x c_lbrk | [] => false end = false ->
  lex_links r = Ret (LErr [] r).
Proof. unfold lex_links. destruct r as [|x r]; cbn; [auto|]. now intros ->. Qed.

Lemma lex_links_title r u a b r' :
  lex_links r = Ret (LOk (Link u a b) r') -> exists t, a = Some t.
Proof.
  unfold lex_links, lex_footnote, lex_link_dest, consume_while.
  repeat match goal with
  | |- context [match ?x with Some _ => _ | None => _ end] => destruct x
  | |- context [match ?x with inl _ => _ | inr _ => _ end] => destruct x
  | |- context [match ?x with [] => _ | _ :: _ => _ end] => destruct x
  | |- context [if ?x then _ else _] => destruct x
  end; try discriminate; injection 1; intros; subst; eauto.
Qed.

Lemma lex_images_ok r0 l :
  OK (c_bang :: r0) -> lex_images (c_bang :: r0) = Ret l -> lres_ok (c_bang :: r0) l.
Proof.
  intros H. unfold lex_images.
  destruct (next_if_eq c_bang (c_bang :: r0)) as [r1|] eqn:E1.
  2:{ cbn in E1. discriminate. }
  apply next_if_eq_some in E1. set (r := c_bang :: r0) in *.
  assert (O1 : OK r1) by (apply (OK_sub r _ r1 H); [suf | inf]).
  assert (D : (exists r', r1 = c_lbrk :: r') \/
     match r1 with x :: _ => ceq x c_lbrk | [] => false end = false).
  { destruct r1 as [|x r1']; [now right|]. destruct (ceq x c_lbrk) eqn:E; [|now right].
    apply ceq_eq in E as ->. left; eauto. }
  destruct D as [[r' E2]|D].
  - destruct (lex_links r1) as [lk| |] eqn:L; cbn [bind]; try easy.
    pose proof L as L0.
    rewrite E2 in L, O1. apply lex_links_ok in L; [|exact O1]. rewrite <- E2 in L.
    destruct lk as [t r2|e r2]; destruct L as [S L].
    + assert (D : (exists u a b, t = Link u a b) \/ match t with Link _ _ _ => false | _ => true end = true).
      { destruct t; eauto. }
      destruct D as [(u & a & b & ->)|D].
      * injection 1 as <-. split; [apply ssuffix_suffix in S; suf|].
        destruct (lex_links_title _ _ _ _ _ L0) as [a' ->].
        pose proof (lex_links_at _ _ _ _ _ L0) as (src & c & e & rest & V & N1 & N2 & R).
        inversion L; subst. constructor; auto; [exists (c_bang :: r0); split; [auto | now left]|].
        exists b, src, c, e. split; [auto|]. split; [auto|]. split; [auto|]. eapply OK_infix; [|exact H]. subst r. rewrite E1, R. now exists [], rest.
      * intros Q. assert (l = LErr (lit "Non link token returned from lex_links") r2) as ->.
        { destruct t; try discriminate D; now injection Q as <-. }
        split; [apply ssuffix_suffix in S; suf | auto].
    + injection 1 as <-. split; [apply ssuffix_suffix in S; suf | ok r].
  - rewrite lex_links_not_bracket by exact D. cbn [bind].
    injection 1 as <-. split; [suf | ok r].
Qed.

Lemma details_loop_suffix n start r text x r' :
  details_loop n start r text = Some (x, r') ->
  suffix r' r /\ (x = text \/ infix x start).
Proof.
  revert r text; induction n as [|n IH]; intros r text; cbn [details_loop].
  - destruct (_ =? _); [easy|]. injection 1 as <- <-. split; [suf | auto].
  - destruct (_ =? _).
    2:{ injection 1 as <- <-. split; [suf | auto]. }
    destruct (consume_until_tail_is _ r) as [y r1] eqn:E.
    apply consume_until_tail_app in E. intros Q. apply IH in Q as [S X].
    split; [suf|]. right. destruct X as [->|X]; [|auto]. inf.
Qed.

Variable LOOP : nat.

Lemma parse_details_ok r r0 l :
  In c_lt r0 -> OK r0 -> ssuffix r r0 -> parse_details LEX LOOP r = Ret l -> lres_ok r0 l.
Proof.
  intros HB H S. unfold parse_details, consume_while.
  set (f := fun c => _).
  set (sm := take_while f r). set (r2 := skip_if_eq c_cr (drop_while f r)).
  assert (S2 : suffix r2 r) by (subst r2; suf).
  assert (OS : OK sm) by (subst sm; ok r).
  destruct (_ || _). { injection 1 as <-. split; [suf | auto]. }
  destruct (strip_prefix _ sm) as [s1|] eqn:E; [|easy].
  apply infix_strip_prefix in E.
  destruct (consume_until_tail_is _ r2) as [t0 r3] eqn:ET.
  apply consume_until_tail_app in ET.
  assert (OT : OK t0). { apply (OK_sub r0 _ r2 H); [suf|]. rewrite ET. now exists [], r3. }
  assert (S3 : suffix r3 r2) by suf.
  destruct (if contains _ t0 then _ else _) as [[text r4]|] eqn:EL; [|easy].
  assert (suffix r4 r3 /\ infix text r2) as [S4 OX].
  { assert (infix t0 r2) as I0 by (rewrite ET; now exists [], r3).
    destruct (contains _ t0).
    - apply details_loop_suffix in EL as [S4 [->|X]]; (split; [auto|auto]).
    - injection EL as <- <-. split; [suf | auto]. }
  destruct (LEX _ _) as [toks| |] eqn:L; cbn [bind]; try easy.
  injection 1 as <-. split; [suf|]. constructor; [now exists r0| |].
  - apply (OK_infix _ sm); [inf; exact E | auto].
  - eapply LEX_ok; [|exact L]. apply (SOK_sub r0 r2 _ H); [suf|].
    eapply infix_trans; [|exact OX]. inf.
Qed.

Lemma lex_side_carrot_ok r0 l :
  OK (c_lt :: r0) -> lex_side_carrot LEX LOOP (c_lt :: r0) = Ret l -> lres_ok (c_lt :: r0) l.
Proof.
  intros H. unfold lex_side_carrot, consume_while.
  destruct (next_if_eq c_lt (c_lt :: r0)) as [r1|] eqn:E1.
  2:{ cbn in E1. discriminate. }
  apply next_if_eq_some in E1. set (r := c_lt :: r0) in *.
  set (f := fun c => _). set (s := take_while f r1). set (r2 := drop_while f r1).
  assert (S2 : suffix r2 r1) by (subst r2; suf).
  assert (OS : OK s) by (subst s; ok r1).
  assert (R2 : r1 = s ++ r2) by (symmetry; apply take_drop).
  destruct (next_if_eq c_gt r2) as [r3|] eqn:E3.
  2:{ injection 1 as <-. split; [suf | auto]. }
  apply next_if_eq_some in E3.
  destruct (str_eqb s _).
  { destruct (next_if_eq c_nl (skip_if_eq c_cr r3)) as [r5|] eqn:E5.
    - apply next_if_eq_some in E5.
      apply parse_details_ok; [now left|auto|].
      apply ssuffix_trans_r with (skip_if_eq c_cr r3); [rewrite E5; apply suffix_cons|].
      suf.
    - injection 1 as <-. split; [suf | auto]. }
  destruct s as [|c s'] eqn:ES.
  { injection 1 as <-. split; [suf|].
    apply (OK_infix _ r); [|auto]. rewrite E1, R2, E3. now exists [], r3. }
  destruct (existsb _ _). { injection 1 as <-. split; [suf | ok r]. }
  destruct (validate_link (c :: s')) as [[u [sch|]]|e] eqn:V;
    injection 1 as <-; (split; [suf|]).
  - apply t1_auto; [exists r; split; [auto|now left]| |easy]. exists (c :: s'). split; [auto|]. split.
    + intros J. rewrite <- ES in J. apply (proj1 (forallb_forall _ _) (take_while_forall f r1)) in J. discriminate.
    + apply (OK_infix _ r); [|auto]. rewrite E1, R2, E3. exists [], r3. cbn [app]. now rewrite <- app_assoc.
  - ok r.
  - ok r.
Qed.

Lemma table_lines_ok n r ls r' :
  table_lines n r = Some (ls, r') ->
  suffix r' r /\ Forall (fun l => exists q, ssuffix q r /\ infix l q) ls.
Proof.
  revert r ls r'; induction n as [|n IH]; intros r ls r'; [easy|].
  cbn [table_lines]. destruct (next_if_eq c_pipe r) as [r1|] eqn:E.
  2:{ injection 1 as <- <-. split; [suf|]. auto. }
  apply next_if_eq_some in E. unfold consume_while.
  destruct (table_lines n _) as [[ls2 r3]|] eqn:E2; [|easy].
  injection 1 as <- <-. apply IH in E2 as (S & F).
  assert (S1 : suffix (next (drop_while not_nl r1)) r1) by suf.
  assert (S0 : ssuffix r1 r) by suf.
  split.
  - apply suffix_trans with (next (drop_while not_nl r1)); [exact S|]. suf.
  - constructor.
    + exists r1. split; [auto | inf].
    + revert F. apply Forall_impl. intros a (q & Sq & I). exists q. split; [|auto].
      apply ssuffix_trans_l with (next (drop_while not_nl r1)); [auto|]. suf.
Qed.

Lemma mapM_ok {A B} (f : A -> res B) (Q : B -> Prop) l ys :
  (forall x y, In x l -> f x = Ret y -> Q y) -> mapM f l = Ret ys -> Forall Q ys.
Proof.
  revert ys; induction l as [|x l IH]; cbn; intros ys H.
  - injection 1 as <-. constructor.
  - destruct (f x) as [y| |] eqn:E; cbn; try easy.
    destruct (mapM f l) as [zs| |]; cbn; try easy. injection 1 as <-.
    constructor; [eapply H; [now left | exact E] |].
    apply IH; [|auto]. intros a b I. apply H. now right.
Qed.
Lemma mapM_length {A B} (f : A -> res B) l ys : mapM f l = Ret ys -> length ys = length l.
Proof.
  revert ys; induction l as [|x l IH]; cbn; intros ys.
  - now injection 1 as <-.
  - destruct (f x) as [y| |]; cbn; try easy.
    destruct (mapM f l) as [zs| |]; cbn; try easy. injection 1 as <-.
    cbn. f_equal. now apply IH.
Qed.

Lemma cells_infix l x : In x (cells l) -> infix x l.
Proof.
  unfold cells. rewrite in_map_iff. intros (y & <- & I). apply filter_In in I as [I _].
  apply split_infix in I. eapply infix_trans; [apply infix_trim | exact I].
Qed.
Lemma Forall_combine_r {A B} (Q : B -> Prop) (l : list A) (m : list B) :
  Forall Q m -> Forall (fun p => Q (snd p)) (combine l m).
Proof.
  intros F. revert l; induction F; intros [|a k]; cbn; constructor; auto.
Qed.

Lemma lex_row_ok l cs R q :
  OK R -> ssuffix q R -> infix l q -> lex_row LEX l = Ret cs -> Forall (Forall CH) cs.
Proof.
  intros H S HI. unfold lex_row. apply mapM_ok. intros x y I.
  destruct (LEX x []) as [toks| |] eqn:L; cbn [bind]; try easy. injection 1 as <-.
  apply cells_infix in I. apply LEX_ok in L.
  2:{ apply (SOK_sub R q _ H S). eapply infix_trans; eauto. }
  rewrite Forall_forall in L |- *. intros t T. apply filter_In in T as [T _]. auto.
Qed.

Lemma lex_pipes_ok r0 l :
  OK (c_pipe :: r0) -> lex_pipes LEX (c_pipe :: r0) = Ret l -> lres_ok (c_pipe :: r0) l.
Proof.
  intros H. unfold lex_pipes. set (r := c_pipe :: r0) in *.
  destruct (table_lines (S (length r)) r) as [[lines r1]|] eqn:E; [|easy].
  assert (SS : ssuffix r1 r).
  { subst r. cbn [table_lines next_if_eq] in E. rewrite ceq_refl in E. unfold consume_while in E.
    destruct (table_lines _ (next _)) as [[ls r3]|] eqn:E2; [|easy]. injection E as _ <-.
    apply table_lines_ok in E2 as [S _]. pose proof (ssuffix_cons c_pipe r0). suf. }
  apply table_lines_ok in E as (_ & F).
  assert (OE : OK (substring_from r r1)) by ok r.
  destruct lines as [|hd [|al bd]]; try (injection 1 as <-; split; auto; fail).
  destruct (_ <? 3) eqn:L3. { injection 1 as <-. split; auto. }
  destruct (negb _). { injection 1 as <-. split; auto. }
  destruct (mapM _ bd) as [rows| |] eqn:M; cbn [bind]; try easy.
  injection 1 as <-. split; [auto|].
  rewrite Forall_forall in F.
  constructor.
  - exists r. split; [auto | now left].
  - intros ->. apply mapM_length in M. apply Nat.ltb_ge in L3. cbn in *. lia.
  - apply Forall_combine_r. rewrite Forall_forall. intros x I. apply cells_infix in I.
    destruct (F hd ltac:(now left)) as (q & Sq & Iq). apply (OK_sub r _ q H); [suf|].
    eapply infix_trans; eauto.
  - revert M. apply mapM_ok. intros x y I.
    destruct (lex_row LEX x) as [cs| |] eqn:R; cbn [bind]; try easy. injection 1 as <-.
    apply Forall_combine_r. destruct (F x ltac:(now do 2 right)) as (q & Sq & Iq).
    eapply (lex_row_ok x cs r q); eauto.
Qed.

Lemma dispatch_ok last c r0 l :
  OK (c :: r0) -> dispatch LEX RENDER LOOP IG last c (c :: r0) = Ret l ->
  lres_ok (c :: r0) l.
Proof.
  intros H. unfold dispatch.
  destruct (ceq c c_hash && _) eqn:E1.
  { apply andb_true_iff in E1 as [E1 E0]. apply ceq_eq in E1 as ->. apply negb_true_iff in E0. now apply lex_heading_ok. }
  destruct (ceq c c_nl) eqn:E2.
  { apply ceq_eq in E2 as ->. injection 1 as <-. now apply lex_newlines_ok. }
  destruct (ceq c c_sp || ceq c c_tab) eqn:E3.
  { apply lex_tabs_spaces_ok; auto. unfold is_sp_tab. now rewrite orb_comm. }
  destruct (is_digit c) eqn:E4. { now apply lex_numbers_ok. }
  destruct (ceq c c_star || _) eqn:E5. { injection 1 as <-. now apply lex_asterisk_ok. }
  destruct (ceq c c_minus || _) eqn:E6. { now apply lex_plus_minus_ok. }
  destruct (ceq c c_gt) eqn:E7.
  { apply ceq_eq in E7 as ->. injection 1 as <-. now apply lex_blockquotes_ok. }
  destruct (ceq c c_tilde) eqn:E8.
  { apply ceq_eq in E8 as ->. injection 1 as <-. now apply lex_tilde_ok. }
  destruct (ceq c c_tick) eqn:E9.
  { apply ceq_eq in E9 as ->. injection 1 as <-. now apply lex_backticks_ok. }
  destruct (ceq c c_lbrk) eqn:E10.
  { apply ceq_eq in E10 as ->. now apply lex_links_ok. }
  destruct (ceq c c_bang) eqn:E11.
  { apply ceq_eq in E11 as ->. now apply lex_images_ok. }
  destruct (ceq c c_lt) eqn:E12.
  { apply ceq_eq in E12 as ->. now apply lex_side_carrot_ok. }
  destruct (ceq c c_pipe) eqn:E13.
  { apply ceq_eq in E13 as ->. now apply lex_pipes_ok. }
  destruct (ceq c c_bslash) eqn:E14.
  { injection 1 as <-. now apply lex_escaped_ok. }
  injection 1 as <-. split; [apply ssuffix_cons|]. constructor.
  apply (OK_infix _ (c :: r0)); [|auto]. now exists [], r0.
Qed.

Lemma next_token_ok last r t r' :
  OK r -> next_token LEX RENDER LOOP IG last r = Ret (Some (t, r')) ->
  ssuffix r' r /\ tok_ok t.
Proof.
  intros H. destruct r as [|c r0]; [easy|]. cbn [next_token].
  destruct (dispatch _ _ _ _ _ c _) as [l| |] eqn:D; cbn [bind]; try easy.
  apply dispatch_ok in D; [|auto].
  destruct l as [t0 r1|e r1]; injection 1 as <- <-; destruct D; split; auto.
  now constructor.
Qed.

Lemma lex_loop_ok n last r toks :
  OK r -> lex_loop LEX RENDER LOOP n IG last r = Ret toks -> Forall tok_ok toks.
Proof.
  revert last r toks; induction n as [|n IH]; intros last r toks H; [easy|].
  cbn [lex_loop]. destruct (next_token _ _ _ _ _ r) as [[[t r']|]| |] eqn:N; cbn [bind]; try easy.
  - apply next_token_ok in N as [S T]; [|auto].
    destruct (lex_loop _ _ _ n _ _ _) as [ts| |] eqn:L; cbn [bind]; try easy.
    injection 1 as <-. constructor; [auto|]. eapply IH; [|exact L].
    apply (OK_infix _ r); [|auto]. now apply suffix_infix, ssuffix_suffix.
  - injection 1 as <-. constructor.
Qed.
End Fns.
End Tok.

(** ** Progress alone, for every callback *)
Lemma list_paragraphs_suffix n r toks r' :
  list_paragraphs n r = Some (toks, r') -> suffix r' r.
Proof.
  revert r toks r'; induction n as [|n IH]; intros r toks r'; [easy|].
  cbn [list_paragraphs]. destruct (ahead_is _ r).
  - unfold consume_while. destruct (list_paragraphs n _) as [[ts r2]|] eqn:E; [|easy].
    injection 1 as <- <-. apply IH in E. suf.
  - injection 1 as <- <-. suf.
Qed.

Lemma next_token_progress LEX RENDER LOOP ignore last r t r' :
  next_token LEX RENDER LOOP ignore last r = Ret (Some (t, r')) -> ssuffix r' r.
Proof.
  intros E.
  apply (next_token_ok (fun _ => True) (fun _ => True) (fun _ => True) (fun _ => True)) in E as [S _];
    auto.
  intros. apply Forall_forall. auto.
Qed.
