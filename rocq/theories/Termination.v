(** * Termination: with enough fuel nothing hangs.

    The recursion depth of [render] is bounded by a linear function of the
    length of the source, for every source whose details blocks are closed
    ([details_closed], SpecRobust.v).  First for texts without blocks, to which
    everything that is lexed again belongs but the texts of blocks; then for all
    others. *)
From Coq Require Import Ascii String.
From Verif Require Import Strings StringsFacts SanitizeFacts Token Iter Lexer Parser
  LexerFacts LexMono Master NoPanic DetailsFacts DetailsBody SpecRobust.
Open Scope list_scope.

Lemma bind_nh {A B} (m : res A) (k : A -> res B) :
  m <> Hang -> (forall a, m = Ret a -> k a <> Hang) -> bind m k <> Hang.
Proof. intros H K. destruct m; cbn; [now apply K | easy | easy]. Qed.
Lemma mapM_nh {A B} (f : A -> res B) l : (forall x, In x l -> f x <> Hang) -> mapM f l <> Hang.
Proof.
  induction l as [|x l IH]; cbn; intros H; [easy|].
  apply bind_nh; [apply H; now left|]. intros y _. apply bind_nh; [|easy].
  apply IH. intros; apply H; now right.
Qed.

(** ** The bounded loops inside the lexer *)
Lemma tabs_spaces_go_nh n last r :
  length r <= n -> (exists c r0, r = c :: r0 /\ is_sp_tab c = true) ->
  lex_tabs_spaces_go n last r <> None.
Proof.
  revert r; induction n as [|n IH]; intros r L (c & r0 & E & Hc).
  { subst. cbn in L. lia. }
  cbn [lex_tabs_spaces_go]. unfold consume_while.
  assert (S1 : ssuffix (drop_while is_sp_tab r) r) by (subst; now apply ssuffix_drop_while).
  set (ws := take_while is_sp_tab r). set (r1 := drop_while is_sp_tab r) in *.
  destruct (_ && _ && _); [easy|]. destruct (_ && _ && _); [easy|].
  destruct (consume_until_tail_is [c_nl] r1) as [line r2] eqn:EL.
  apply consume_until_tail_app in EL.
  destruct (_ && _ && _); [easy|]. destruct (_ || _ || _); [easy|].
  destruct (str_eqb ws _); [easy|]. destruct (_ || _) eqn:PK; [|easy].
  assert (X : exists c r0, r2 = c :: r0 /\ is_sp_tab c = true).
  { apply orb_true_iff in PK as [PK|PK]; apply peek_is_true in PK as [q ->];
      do 2 eexists; (split; [reflexivity|]); reflexivity. }
  assert (SS : ssuffix r2 r) by suf. apply ssuffix_length in SS.
  specialize (IH r2 ltac:(lia) X).
  destruct (lex_tabs_spaces_go n last r2) as [[[] ?|]|]; easy.
Qed.
Lemma list_paragraphs_nh n r : length r < n -> list_paragraphs n r <> None.
Proof.
  revert r; induction n as [|n IH]; intros r L; [lia|]. cbn [list_paragraphs].
  destruct (ahead_is _ r) eqn:A; [|easy]. unfold consume_while.
  set (r1 := drop_while not_nl (next (next (next r)))).
  assert (L1 : length r1 < n).
  { destruct r as [|a r]; [easy|]. assert (suffix r1 r) as S by (subst r1; cbn; suf).
    apply suffix_length in S. cbn in L. lia. }
  specialize (IH r1 L1). destruct (list_paragraphs n r1) as [[]|]; easy.
Qed.
Lemma footnote_lines_nh n r : length r < n -> footnote_lines n r <> None.
Proof.
  revert r; induction n as [|n IH]; intros r L; [lia|]. cbn [footnote_lines].
  set (r1 := next (drop_while not_nl r)).
  assert (S1 : suffix r1 r) by (subst r1; suf). apply suffix_length in S1.
  destruct (_ && _); [easy|].
  destruct (next_if_eq c_tab r1) as [r2|] eqn:E.
  - apply next_if_eq_some in E. apply IH. rewrite E in S1. cbn in S1. lia.
  - unfold consume_while. destruct (_ || _) eqn:B; [|easy]. apply IH.
    pose proof (take_drop (ceq c_sp) r1) as T. apply (f_equal (@length _)) in T.
    rewrite app_length in T. apply orb_true_iff in B as [B|B]; apply Nat.eqb_eq in B; lia.
Qed.
Lemma table_lines_nh n r : length r < n -> table_lines n r <> None.
Proof.
  revert r; induction n as [|n IH]; intros r L; [lia|]. cbn [table_lines].
  destruct (next_if_eq c_pipe r) as [r1|] eqn:E; [|easy]. apply next_if_eq_some in E.
  unfold consume_while. set (r2 := next (drop_while not_nl r1)).
  assert (S1 : suffix r2 r1) by (subst r2; suf). apply suffix_length in S1.
  specialize (IH r2). subst r. cbn in L. specialize (IH ltac:(lia)).
  destruct (table_lines n r2) as [[]|]; easy.
Qed.

(** ** Texts without details blocks *)
Definition flat (s : str) : Prop := ~ infix (c_nl :: lit "<summary>") s.
Lemma flat_infix a s : infix a s -> flat s -> flat a.
Proof. intros I N J. apply N. eapply infix_trans; eauto. Qed.
Lemma flat_no_nl s : ~ In c_nl s -> flat s.
Proof. intros N I. apply N. apply (infix_In _ _ _ I). now left. Qed.
Lemma flat_line r a b : split_line r = (a, b) -> flat a.
Proof.
  unfold split_line. destruct (split_once c_nl r) as [[x y]|] eqn:E.
  - apply split_once_some in E as [_ N]. injection 1 as <- <-. intros (p & q & Q).
    change (p ++ (c_nl :: lit "<summary>") ++ q) with (p ++ c_nl :: (lit "<summary>" ++ q)) in Q.
    apply first_char_split in Q as [[_ Q]|(z & -> & Q)]; [discriminate Q | now destruct z | exact N].
  - apply split_once_none in E. injection 1 as <- <-. now apply flat_no_nl.
Qed.
Lemma flat_take_nl r : flat (take_while not_nl r).
Proof.
  apply flat_no_nl. intros I. pose proof (take_while_forall not_nl r) as F.
  apply (proj1 (forallb_forall _ _) F) in I. discriminate.
Qed.

(** ** One level of the lexer *)
Section Lex.
Variable LEX : str -> list char -> res (list token).
Variable RENDER : str -> list char -> res str.
Variable LOOP : nat.
Variables (OK SOK : str -> Prop).
Hypothesis OK_suffix : forall a s, suffix a s -> OK s -> OK a.
Hypothesis SOK_sub : forall r r' a, OK r -> ssuffix r' r -> infix a r' -> flat a -> SOK a.
Hypothesis LEX_nh : forall s ig, SOK s -> LEX s ig <> Hang.
Hypothesis RENDER_nh : forall s ig, SOK s -> RENDER s ig <> Hang.
Hypothesis DET : forall R x r, OK R -> R = lit "<details>" ++ x ++ r ->
  x = [c_nl] \/ x = [c_cr; c_nl] -> parse_details LEX LOOP r <> Hang.

Lemma lex_heading_nh r0 : OK (c_hash :: r0) -> lex_heading RENDER (c_hash :: r0) <> Hang.
Proof.
  intros H. set (r := c_hash :: r0) in *. unfold lex_heading, consume_while.
  assert (S1 : ssuffix (drop_while (ceq c_hash) r) r) by (apply ssuffix_drop_while, ceq_refl).
  destruct (_ <? _); [easy|].
  destruct (heading_sep _) as [r2|] eqn:E; [|easy]. apply heading_sep_suffix in E.
  destruct (heading_id _) as [line|] eqn:EI; [|easy].
  destruct (forallb _ _); [easy|]. apply bind_nh; [|easy]. apply RENDER_nh.
  apply heading_id_infix in EI.
  assert (I : infix (trim_end_by is_sp_tab (heading_trailing line)) (take_while not_nl r2)).
  { eapply infix_trans; [apply infix_trim_end_by|].
    eapply infix_trans; [apply heading_trailing_infix | exact EI]. }
  apply (SOK_sub r r2); [auto|suf| |].
  - eapply infix_trans; [exact I | apply infix_take_while].
  - eapply flat_infix; [exact I | apply flat_take_nl].
Qed.
Lemma lex_numbers_nh r : lex_numbers r <> Hang.
Proof.
  destruct r as [|c r]; [easy|].
  cbn [lex_numbers]. destruct (next_if_eq _ r); [|easy].
  destruct (next_if_eq _ _); easy.
Qed.
Lemma list_item_nh line toks r R :
  OK R -> ssuffix r R -> list_item_token LEX line toks r <> Hang.
Proof.
  intros H S. unfold list_item_token. destruct (starts_with _ line); [easy|].
  destruct (_ || _); [easy|]. destruct (peek_line_ahead r); [|easy].
  unfold consume_line_ahead. destruct (split_line r) as [sub r5] eqn:E.
  assert (FL : flat sub) by (eapply flat_line; exact E). apply split_line_app in E.
  assert (I : infix sub r) by (rewrite E; now exists [], r5).
  destruct (starts_with _ s). { apply bind_nh; [|easy]. apply LEX_nh. now apply (SOK_sub R r). }
  destruct (starts_with _ s); [|easy].
  apply bind_nh; [|easy]. apply LEX_nh. apply (SOK_sub R r); auto.
  - eapply infix_trans; [apply infix_skipn | exact I].
  - eapply flat_infix; [apply infix_skipn | exact FL].
Qed.
Lemma lex_plus_minus_nh c r0 :
  ceq c c_minus || ceq c c_plus = true -> OK (c :: r0) -> lex_plus_minus LEX (c :: r0) <> Hang.
Proof.
  intros Hc H. unfold lex_plus_minus, consume_while.
  set (f := fun c => ceq c c_minus || ceq c c_plus). set (r := c :: r0) in *.
  assert (S1 : ssuffix (drop_while f r) r) by now apply ssuffix_drop_while.
  destruct (length (take_while f r)) as [|[|[|k]]]; try easy.
  set (r2 := drop_while not_nl _).
  assert (S2 : ssuffix r2 r) by (subst r2; suf).
  destruct (list_paragraphs _ r2) as [[m r3]|] eqn:E.
  - apply list_paragraphs_suffix in E. apply (list_item_nh _ _ _ r); [auto|]. suf.
  - exfalso. revert E. apply list_paragraphs_nh. lia.
Qed.
Lemma lex_footnote_nh t r r0 : lex_footnote t r r0 <> Hang.
Proof.
  unfold lex_footnote. destruct (footnote_lines _ _) as [[|]|] eqn:E; try easy.
  - destruct (existsb _ _); easy.
  - exfalso. revert E. apply footnote_lines_nh. lia.
Qed.
Lemma lex_links_nh r : lex_links r <> Hang.
Proof.
  unfold lex_links, consume_while. destruct (next_if_eq _ r); [|easy].
  destruct (next_if_eq _ _); [|easy]. destruct (if starts_with _ _ then _ else _); [apply lex_footnote_nh|].
  destruct (next_if_eq _ _); easy.
Qed.
Lemma lex_images_nh r : lex_images r <> Hang.
Proof.
  unfold lex_images. destruct (next_if_eq _ r); [|easy]. apply bind_nh; [apply lex_links_nh|].
  intros [[]|]; easy.
Qed.
Lemma skip_if_eq_cases c r : r = c :: skip_if_eq c r \/ skip_if_eq c r = r.
Proof.
  unfold skip_if_eq, next_if_eq. destruct r as [|d r]; [now right|].
  destruct (ceq d c) eqn:E; [left | now right]. apply ceq_eq in E. now subst.
Qed.
Lemma lex_side_carrot_nh r : OK r -> lex_side_carrot LEX LOOP r <> Hang.
Proof.
  intros H. unfold lex_side_carrot, consume_while.
  destruct (next_if_eq _ r) as [r1|] eqn:E1; [|easy]. apply next_if_eq_some in E1.
  set (f := fun c => _). set (s := take_while f r1).
  assert (R1 : r1 = s ++ drop_while f r1) by (symmetry; apply take_drop).
  destruct (next_if_eq c_gt _) as [r3|] eqn:E3; [|easy]. apply next_if_eq_some in E3.
  destruct (str_eqb s _) eqn:ES.
  - apply str_eqb_eq in ES.
    destruct (next_if_eq _ _) as [r5|] eqn:E5; [|easy]. apply next_if_eq_some in E5.
    destruct (skip_if_eq_cases c_cr r3) as [Y|Y].
    + apply (DET r [c_cr; c_nl]); [auto| |auto]. rewrite E1, R1, ES, E3, Y, E5. reflexivity.
    + apply (DET r [c_nl]); [auto| |auto]. rewrite Y in E5. rewrite E1, R1, ES, E3, E5. reflexivity.
  - destruct s; [easy|]. destruct (existsb _ _); [easy|].
    destruct (validate_link _) as [[u [|]]|]; easy.
Qed.
Lemma table_lines_nl n r lines r1 :
  table_lines n r = Some (lines, r1) -> Forall (fun l => ~ In c_nl l) lines.
Proof.
  revert r lines r1; induction n as [|n IH]; intros r lines r1; [easy|]. cbn [table_lines].
  destruct (next_if_eq _ r) as [r2|]; [|injection 1 as <- _; constructor].
  unfold consume_while. destruct (table_lines n _) as [[ls r3]|] eqn:E; [|easy].
  injection 1 as <- _. constructor; [|eapply IH; exact E].
  intros I. pose proof (take_while_forall not_nl r2) as F.
  apply (proj1 (forallb_forall _ _) F) in I. discriminate.
Qed.
Lemma lex_pipes_nh r : OK r -> lex_pipes LEX r <> Hang.
Proof.
  intros H. unfold lex_pipes. destruct (table_lines _ _) as [[lines r1]|] eqn:E.
  2:{ exfalso. revert E. apply table_lines_nh. lia. }
  pose proof (table_lines_nl _ _ _ _ E) as NL. rewrite Forall_forall in NL.
  apply table_lines_ok in E as (_ & F). rewrite Forall_forall in F.
  destruct lines as [|h [|a b]]; try easy. destruct (_ <? _); [easy|]. destruct (negb _); [easy|].
  apply bind_nh; [|easy]. apply mapM_nh. intros l I. apply bind_nh; [|easy].
  unfold lex_row. apply mapM_nh. intros e Ie. apply bind_nh; [|easy]. apply LEX_nh.
  apply cells_infix in Ie. destruct (F l ltac:(now do 2 right)) as (q & Sq & Iq).
  apply (SOK_sub r q); auto; [eapply infix_trans; eauto|].
  eapply flat_infix; [exact Ie|]. apply flat_no_nl. now apply (NL l); do 2 right.
Qed.
Lemma dispatch_nh ig last c r : OK (c :: r) -> dispatch LEX RENDER LOOP ig last c (c :: r) <> Hang.
Proof.
  intros H. unfold dispatch.
  destruct (ceq c c_hash && _) eqn:E1.
  { apply andb_true_iff in E1 as [E1 _]. apply ceq_eq in E1 as ->. now apply lex_heading_nh. }
  destruct (ceq c c_nl); [easy|].
  destruct (ceq c c_sp || _) eqn:E2.
  { unfold lex_tabs_spaces. destruct (lex_tabs_spaces_go _ _ _) eqn:E; [easy|].
    exfalso. revert E. apply tabs_spaces_go_nh; [lia|]. exists c, r. split; [auto|].
    unfold is_sp_tab. now rewrite orb_comm. }
  destruct (is_digit c); [apply lex_numbers_nh|].
  destruct (ceq c c_star || _); [easy|].
  destruct (ceq c c_minus || _) eqn:E3; [now apply lex_plus_minus_nh|].
  destruct (ceq c c_gt); [easy|].
  destruct (ceq c c_tilde); [easy|].
  destruct (ceq c c_tick); [easy|].
  destruct (ceq c c_lbrk); [apply lex_links_nh|].
  destruct (ceq c c_bang); [apply lex_images_nh|].
  destruct (ceq c c_lt); [now apply lex_side_carrot_nh|].
  destruct (ceq c c_pipe); [now apply lex_pipes_nh|].
  destruct (ceq c c_bslash); easy.
Qed.
Lemma lex_loop_nh n ig last r : length r < n -> OK r -> lex_loop LEX RENDER LOOP n ig last r <> Hang.
Proof.
  revert last r; induction n as [|n IH]; intros last r L H; [lia|]. cbn [lex_loop].
  apply bind_nh.
  - destruct r as [|c r]; [easy|]. cbn [next_token]. apply bind_nh; [now apply dispatch_nh|].
    intros [|]; easy.
  - intros [[t r']|] E; [|easy]. apply bind_nh; [|easy].
    apply next_token_progress in E. apply IH.
    + apply ssuffix_length in E. lia.
    + apply (OK_suffix _ r); [|auto]. now apply ssuffix_suffix.
Qed.
End Lex.
Lemma parse_details_flat LEX LOOP R x r : flat R -> R = lit "<details>" ++ x ++ r ->
  x = [c_nl] \/ x = [c_cr; c_nl] -> parse_details LEX LOOP r <> Hang.
Proof.
  intros H E X. unfold parse_details, consume_while. set (f := fun c => _).
  destruct (starts_with (lit "<summary>") (take_while f r)) eqn:S; cbn [negb orb]; [|easy].
  exfalso. apply starts_with_iff in S as [z S]. apply H.
  assert (ER : r = lit "<summary>" ++ z ++ drop_while f r) by now rewrite app_assoc, <- S, take_drop.
  rewrite E, ER. destruct X as [-> | ->].
  - exists (lit "<details>"), (z ++ drop_while f r). reflexivity.
  - exists (lit "<details>" ++ [c_cr]), (z ++ drop_while f r). reflexivity.
Qed.

(** ** Constant texts *)
Fixpoint prefixes (s : str) : list str :=
  match s with [] => [[]] | c :: s' => [] :: map (cons c) (prefixes s') end.
Fixpoint infixes (s : str) : list str :=
  match s with [] => [[]] | c :: s' => prefixes s ++ infixes s' end.
Lemma in_prefixes a b : In a (prefixes (a ++ b)).
Proof.
  induction a as [|x a IH]; cbn; [destruct b; now left|].
  right. apply in_map_iff. eauto.
Qed.
Lemma in_infixes a s : infix a s -> In a (infixes s).
Proof.
  intros (x & y & ->). induction x as [|c x IH].
  - cbn [app]. destruct (a ++ y) as [|d l] eqn:E.
    + apply app_eq_nil in E as [-> _]. now left.
    + cbn [infixes]. apply in_or_app. left. rewrite <- E. apply in_prefixes.
  - cbn [app infixes]. apply in_or_app. now right.
Qed.

Definition cst (t : str) : Prop :=
  infix t (lit "EOF") \/ infix t (lit "Non link token returned from lex_links").
Lemma cst_infix a s : infix a s -> cst s -> cst a.
Proof. intros I [H|H]; [left | right]; eapply infix_trans; eauto. Qed.

Definition cst_tok (t : token) : Prop :=
  exists x, cst x /\ (t = Plaintext x \/ t = Italic x).
Definition cst_tokb (t : token) : bool :=
  match t with
  | Plaintext x | Italic x =>
      contains x (lit "EOF") || contains x (lit "Non link token returned from lex_links")
  | _ => false
  end.
Lemma cst_tokb_sound t : cst_tokb t = true -> cst_tok t.
Proof.
  assert (A : forall x, contains x (lit "EOF") || contains x (lit "Non link token returned from lex_links") = true -> cst x).
  { intros x H. apply orb_true_iff in H as [H|H]; apply contains_iff in H; [now left | now right]. }
  destruct t; try easy; cbn [cst_tokb]; intros H; apply A in H; exists t; auto.
Qed.
Lemma cst_lex_check :
  forallb (fun s => match lex 1 s [] with Ret ts => forallb cst_tokb ts | _ => false end)
    (infixes (lit "EOF") ++ infixes (lit "Non link token returned from lex_links")) = true.
Proof. vm_compute. reflexivity. Qed.

Lemma lex_loop_ignore LEX REN LOOP n ig last r :
  ~ In c_hash r -> lex_loop LEX REN LOOP n ig last r = lex_loop LEX REN LOOP n [] last r.
Proof.
  revert last r; induction n as [|n IH]; intros last r H; [easy|]. cbn [lex_loop].
  assert (E : next_token LEX REN LOOP ig last r = next_token LEX REN LOOP [] last r).
  { destruct r as [|c r]; [easy|]. cbn [next_token]. unfold dispatch.
    destruct (ceq c c_hash) eqn:E; [|reflexivity]. apply ceq_eq in E as ->. exfalso. apply H. now left. }
  rewrite E. destruct (next_token _ _ _ [] last r) as [[[t r']|]| |] eqn:N; cbn [bind]; try easy.
  rewrite IH; [easy|]. apply next_token_progress in N. intros I. apply H.
  eapply infix_In; [|exact I]. now apply suffix_infix, ssuffix_suffix.
Qed.

Lemma cst_lex f s ig : 1 <= f -> cst s ->
  exists ts, lex f s ig = Ret ts /\ Forall cst_tok ts.
Proof.
  intros Hf H.
  assert (NH : ~ In c_hash s).
  { intros I. destruct H as [H|H]; apply (infix_In _ _ _ H) in I; revert I; vm_compute; intuition discriminate. }
  assert (IN : In s (infixes (lit "EOF") ++ infixes (lit "Non link token returned from lex_links"))).
  { apply in_or_app. destruct H as [H|H]; [left | right]; now apply in_infixes. }
  pose proof (proj1 (forallb_forall _ _) cst_lex_check s IN) as C. cbv beta in C.
  destruct (lex 1 s []) as [ts| |] eqn:E; try easy.
  apply (le_res_ret _ _ _ (lex_mono 1 f s [] Hf)) in E.
  exists ts. split.
  - rewrite <- E. destruct f; [easy|]. cbn [lex]. now apply lex_loop_ignore.
  - rewrite Forall_forall. intros t I. apply cst_tokb_sound.
    now apply (proj1 (forallb_forall _ _) C).
Qed.

(** ** All levels *)
Section Term.
Variable D : str -> Prop.
Variable QF : nat -> nat.
Hypothesis D_infix : forall a s, infix a s -> D s -> D a.
Hypothesis D_cst : forall t, cst t -> D t.
Hypothesis D_flat : forall s, D s -> flat s.
Hypothesis QF_mono : forall a b, a <= b -> QF a <= QF b.
Hypothesis D_quote : forall r t f, D r -> In c_gt r -> D t -> QF (length t) <= f ->
  render f (sanitize (trim_start_by (ceq c_sp) t)) <> Hang.

Definition G (k : nat) (t : str) : Prop := cst t \/ (D t /\ length t <= k).
Fixpoint tokd (k : nat) (t : token) : Prop :=
  match k with
  | O => cst_tok t
  | S k' => tok1 (G k) (G k') (fun _ => True) (tokd k') t
  end.
Definition F (k : nat) : nat := 3 + k + QF (k + 38).

Lemma G_infix k a s : infix a s -> G k s -> G k a.
Proof.
  intros I [H|[H L]]; [left; eapply cst_infix; eauto|]. right. split; [eauto|].
  apply infix_length in I. lia.
Qed.
Lemma G_flat k s : G k s -> flat s.
Proof. intros [H|[H _]]; apply D_flat; auto. Qed.
Lemma G_strict k r r' a : G (S k) r -> ssuffix r' r -> infix a r' -> G k a.
Proof.
  intros H S I. assert (IR : infix a r).
  { eapply infix_trans; [exact I|]. now apply suffix_infix, ssuffix_suffix. }
  destruct H as [H|[H L]]; [left; eapply cst_infix; eauto|]. right. split; [eauto|].
  apply ssuffix_length in S. apply infix_length in I. lia.
Qed.
Lemma cst_tok_tokd k t : cst_tok t -> tokd k t.
Proof.
  intros H. destruct k as [|k]; [exact H|]. destruct H as (x & H & [->| ->]); constructor; now left.
Qed.
Lemma tokd_plain k t : G k t -> tokd k (Plaintext t).
Proof.
  intros H. destruct k as [|k]; cbn [tokd]; [|now constructor].
  exists t. split; [|auto]. destruct H as [H|[H L]]; [auto|]. destruct t; [|cbn in L; lia].
  left. apply infix_nil.
Qed.
Lemma tokd_plain_inv k t : tokd k (Plaintext t) -> G k t.
Proof.
  destruct k as [|k]; cbn [tokd].
  - intros (x & H & [E|E]); [injection E as ->; now left | easy].
  - inversion 1; auto.
Qed.
Lemma F_step k f : F (S k) <= f -> exists f', f = S f' /\ F k <= f'.
Proof.
  unfold F. intros H. destruct f as [|f]; [lia|]. exists f. split; [auto|].
  assert (QF (k + 38) <= QF (S k + 38)) by (apply QF_mono; lia). lia.
Qed.

Definition Lk (k : nat) : Prop := forall f s ig, F k <= f -> G k s ->
  lex f s ig <> Hang /\ (forall ts, lex f s ig = Ret ts -> Forall (tokd k) ts).
Definition Pk (k : nat) : Prop := forall f ts, F k <= f -> Forall (tokd k) ts -> parse f ts <> Hang.

Lemma cst_Lk k f s ig : F k <= f -> cst s ->
  lex f s ig <> Hang /\ (forall ts, lex f s ig = Ret ts -> Forall (tokd k) ts).
Proof.
  intros Hf H. destruct (cst_lex f s ig) as (ts & E & FT); [unfold F in Hf; lia | auto |].
  rewrite E. split; [easy|]. intros ts'. injection 1 as <-.
  revert FT. apply Forall_impl. intros. now apply cst_tok_tokd.
Qed.

Lemma L0 : Lk 0.
Proof.
  intros f s ig Hf [H|[_ H]]; [now apply cst_Lk|]. destruct s; [|cbn in H; lia].
  apply cst_Lk; [auto|]. left. apply infix_nil.
Qed.
Lemma P0 : Pk 0.
Proof.
  intros f ts Hf FT. destruct f as [|f]; [unfold F in Hf; lia|]. cbn [parse].
  unfold parse_body. apply bind_nh; [|easy]. generalize pinit.
  induction FT as [|t ts H FT IH]; intros p; cbn [parse_loop]; [easy|].
  apply bind_nh; [|intros; apply IH].
  destruct H as (x & _ & [->| ->]); easy.
Qed.
Lemma L_step k : Lk k -> Pk k -> Lk (S k).
Proof.
  intros HL HP f s ig Hf H. destruct (F_step _ _ Hf) as (f' & -> & Hf').
  assert (REN : forall s ig, G k s -> bind (lex f' s ig) (parse f') <> Hang).
  { intros s' ig' H'. destruct (HL f' s' ig' Hf' H') as [A B].
    apply bind_nh; [auto|]. intros ts E. apply HP; auto. }
  assert (LX : forall s ig, G k s -> lex f' s ig <> Hang).
  { intros s' ig' H'. now apply (HL f' s' ig' Hf' H'). }
  split; cbn [lex].
  - apply (lex_loop_nh _ _ _ (G (S k)) (G k)); auto.
    + intros. eapply G_infix; [apply suffix_infix|]; eauto.
    + intros. eapply G_strict; eauto.
    + intros R x r GR. apply parse_details_flat. eapply G_flat; eauto.
  - intros ts. cbn [tokd]. apply lex_loop_ok; auto.
    + intros. eapply G_infix; eauto.
    + left. left. apply infix_refl.
    + left. right. apply infix_refl.
    + apply G_strict.
    + intros t Ht. now apply tokd_plain.
    + intros s' ig' ts' H'. now apply (HL f' s' ig' Hf' H').
Qed.
Lemma P_step k : Lk k -> Pk k -> Pk (S k).
Proof.
  intros HL HP f ts Hf FT. destruct (F_step _ _ Hf) as (f' & -> & Hf').
  assert (REN : forall s, G k s -> bind (lex f' s []) (parse f') <> Hang).
  { intros s' H'. destruct (HL f' s' [] Hf' H') as [A B].
    apply bind_nh; [auto|]. intros ts' E. apply HP; auto. }
  assert (PA : forall ts, Forall (tokd k) ts -> parse f' ts <> Hang) by (intros; now apply HP).
  cbn [parse]. unfold parse_body. apply bind_nh; [|easy]. generalize pinit.
  induction FT as [|t ts H FT IH]; intros p; cbn [parse_loop]; [easy|].
  apply bind_nh; [|intros; apply IH]. cbn [tokd] in H. clear IH. set (p1 := pre t p). clearbody p1.
  inversion H; subst; cbn [body]; try easy.
  - apply bind_nh; [|easy]. apply mapM_nh. intros x I.
    match goal with F : Forall _ toks |- _ => rewrite Forall_forall in F; specialize (F _ I); rename F into FC end. destruct x as [tx| | | | | | | | | | | | | | | | | | | | |]; cbn [list_child]; try easy.
    apply tokd_plain_inv in FC.
    destruct (starts_with _ tx); (apply bind_nh; [|easy]); apply REN;
      (eapply G_infix; [|eassumption]).
    + eapply infix_trans; [apply infix_trim_start_by | apply infix_skipn].
    + apply infix_trim_start_by.
  - destruct (is_empty t0); [easy|]. apply bind_nh; [|easy].
    destruct H2 as (r & Gr & Ir).
    assert (Dr : D r) by (destruct Gr as [Gr|[Gr _]]; auto).
    assert (Dt : D t0) by (destruct H1 as [H1|[H1 _]]; auto).
    change (render f' (sanitize (trim_start_by (ceq c_sp) t0)) <> Hang).
    apply (D_quote r); auto.
    assert (LT : length t0 <= k + 38).
    { destruct H1 as [[H1|H1]|[_ H1]]; try (apply infix_length in H1; cbn in H1); lia. }
    apply QF_mono in LT. unfold F in Hf'. lia.
  - apply bind_nh; [|easy]. now apply PA.
  - destruct rows as [|row rows]; [easy|]. cbn [row0_len]. destruct (negb _); [easy|].
    apply bind_nh; [|easy]. unfold table_html. apply bind_nh; [|easy].
    apply mapM_nh. intros rw I. rewrite Forall_forall in H3. specialize (H3 _ I).
    unfold row_html. apply bind_nh; [|easy]. apply mapM_nh. intros e Ie.
    rewrite Forall_forall in H3. specialize (H3 _ Ie). unfold cell_html.
    apply bind_nh; [|easy]. apply mapM_nh. intros x Ix.
    destruct x; cbn [cell_token]; try easy; now apply PA.
Qed.
Lemma LP k : Lk k /\ Pk k.
Proof.
  induction k as [|k [IL IP]]; [split; [apply L0 | apply P0]|].
  split; [now apply L_step | now apply P_step].
Qed.
Lemma term_render_ignore f s ig : D s -> F (length s) <= f -> render_ignore f s ig <> Hang.
Proof.
  intros H Hf. destruct (LP (length s)) as [HL HP].
  destruct (HL f s ig Hf) as [A B]; [now right|]. unfold render_ignore.
  apply bind_nh; [auto|]. intros. apply HP; auto.
Qed.
End Term.

(** ** Texts without '>' *)
Lemma cst_no_gt t : cst t -> ~ In c_gt t.
Proof.
  intros [H|H] I; apply (infix_In _ _ _ H) in I; revert I; vm_compute; intuition discriminate.
Qed.
Lemma render_nh_no_gt f s ig : ~ In c_gt s -> 3 + length s <= f -> render_ignore f s ig <> Hang.
Proof.
  intros H Hf.
  apply (term_render_ignore (fun t => ~ In c_gt t) (fun _ => 0)); auto.
  - intros a t I N J. apply N. eapply infix_In; eauto.
  - apply cst_no_gt.
  - intros t N I. apply N. eapply infix_In; [exact I|]. vm_compute. tauto.
  - unfold F. lia.
Qed.

(** ** Texts without details blocks: the instance *)
Definition QF (n : nat) : nat := 3 + 8 * n.
Lemma quote_nh f t : QF (length t) <= f ->
  render f (sanitize (trim_start_by (ceq c_sp) t)) <> Hang.
Proof.
  intros Hg. refine (render_nh_no_gt f (sanitize (trim_start_by (ceq c_sp) t)) [] _ _).
  - intros I. apply sanitize_no_special in I. discriminate.
  - pose proof (sanitize_length (trim_start_by (ceq c_sp) t)).
    pose proof (infix_length _ _ (infix_trim_start_by (ceq c_sp) t)). unfold QF in Hg. lia.
Qed.
Lemma cst_flat t : cst t -> flat t.
Proof.
  intros C I. apply cst_no_gt in C. apply C. eapply infix_In; [exact I|]. vm_compute. tauto.
Qed.
Lemma flat_LP k : Lk flat QF k /\ Pk flat QF k.
Proof.
  apply LP.
  - intros a s. apply flat_infix.
  - apply cst_flat.
  - auto.
  - unfold QF. intros; lia.
  - intros r t f _ _ _. apply quote_nh.
Qed.

(** ** Documents with closed details blocks *)
Lemma closed_suffix a s : suffix a s -> details_closed s -> details_closed a.
Proof.
  intros [p ->] H x b E I. apply (H (p ++ x) b); [|auto]. now rewrite E, <- app_assoc.
Qed.
Lemma closed_body R w : details_closed R -> infix w R -> fine w -> details_closed w.
Proof.
  intros H (p & q & E) F a b W I. split.
  - destruct (F a b W) as [Z|Z]; [|exact Z]. apply occurs_0 in Z; [easy|easy].
  - assert (HR := H (p ++ a) (b ++ q)). destruct HR as [_ HR].
    + now rewrite E, W, <- !app_assoc.
    + eapply infix_trans; [exact I|]. now exists [], q.
    + intros line c N B. apply (HR line (c ++ q)); [auto|].
      destruct B as [-> | ->]; [left | right]; cbn [app]; now rewrite <- !app_assoc.
Qed.

(** The tokens of a document whose length is at most [k]. *)
Definition GF := G flat.
Definition tokf := tokd flat.
Definition child_ok (k : nat) (t : token) : Prop :=
  match t with Plaintext x => GF k x | _ => True end.
Definition tokc1 (k : nat) (CH : token -> Prop) (t : token) : Prop :=
  match t with
  | UnorderedListEntry toks => Forall (child_ok k) toks
  | BlockQuote _ x => length x <= k
  | Detail _ toks => Forall CH toks
  | Table _ rows => Forall (Forall (fun c => Forall (tokf k) (snd c))) rows
  | _ => True
  end.
Fixpoint tokc (k : nat) (t : token) : Prop :=
  match k with O => False | S k' => tokc1 k' (tokc k') t end.

Lemma mapM_ret {A B} (f : A -> res B) l ys : mapM f l = Ret ys ->
  forall y, In y ys -> exists x, In x l /\ f x = Ret y.
Proof.
  revert ys; induction l as [|x l IH]; intros ys; cbn [mapM].
  - injection 1 as <-. intros y [].
  - destruct (f x) as [z| |] eqn:E; cbn [bind]; try easy.
    destruct (mapM f l) as [zs| |]; cbn [bind]; try easy. injection 1 as <-.
    intros y [<-|I]; [exists x; split; [now left | auto]|].
    destruct (IH zs eq_refl y I) as (w & W & Q). exists w. split; [now right | auto].
Qed.
Lemma opens_line (w line : str) : w = o_tag \/ w = c_tag -> ~ infix w line ->
  occurs w (lit "<summary>" ++ line) = 0.
Proof.
  intros W N. assert (G : gt_end (lit "<summary>")) by (right; now exists (lit "<summary")).
  assert (NE : w <> []) by (destruct W as [-> | ->]; discriminate).
  apply (occurs_0 w line NE) in N.
  destruct W as [-> | ->]; [rewrite O_app by exact G | rewrite C_app by exact G]; rewrite N; reflexivity.
Qed.
Lemma summary_counts x sm line r1 :
  x = [c_nl] \/ x = [c_cr; c_nl] -> sm = lit "<summary>" ++ line ->
  ends_with (lit "</summary>") sm = true ->
  ~ infix o_tag line -> ~ infix c_tag line ->
  occurs o_tag (x ++ sm ++ r1) = occurs o_tag (skip_if_eq c_cr r1) /\
  occurs c_tag (x ++ sm ++ r1) = occurs c_tag (skip_if_eq c_cr r1).
Proof.
  intros X -> W N1 N2.
  assert (G : gt_end (lit "<summary>" ++ line)).
  { apply ends_with_iff in W as [z ->]. right. exists (z ++ lit "</summary"). now rewrite <- app_assoc. }
  assert (SK : occurs o_tag r1 = occurs o_tag (skip_if_eq c_cr r1) /\
               occurs c_tag r1 = occurs c_tag (skip_if_eq c_cr r1)).
  { destruct (skip_if_eq_cases c_cr r1) as [E|E]; [|now rewrite E]. rewrite E at 1 3. now split. }
  destruct SK as [<- <-].
  assert (XS : occurs o_tag (x ++ (lit "<summary>" ++ line) ++ r1) = occurs o_tag ((lit "<summary>" ++ line) ++ r1) /\
               occurs c_tag (x ++ (lit "<summary>" ++ line) ++ r1) = occurs c_tag ((lit "<summary>" ++ line) ++ r1)).
  { destruct X as [-> | ->]; now split. }
  destruct XS as [-> ->]. rewrite O_app, C_app by exact G.
  rewrite !opens_line by auto. auto.
Qed.

Section Doc.
Variable LEX : str -> list char -> res (list token).
Variable RENDER : str -> list char -> res str.
Variable LOOP k : nat.
Variable CH : token -> Prop.
Hypothesis LEX_flat : forall s ig ts, flat s -> length s <= k -> LEX s ig = Ret ts -> Forall (tokf k) ts.
Hypothesis LEX_doc : forall s ig ts, details_closed s -> length s <= k -> LEX s ig = Ret ts -> Forall CH ts.
Hypothesis LEX_doc_nh : forall s ig, details_closed s -> length s <= k -> LEX s ig <> Hang.
Hypothesis ENOUGH : k <= LOOP.
Local Notation tk := (tokc1 k CH).
Definition lr_tk (l : lres) : Prop := match l with LOk t _ => tk t | LErr _ _ => True end.

Lemma tokf_child t : tokf k t -> child_ok k t.
Proof. destruct t; cbn [child_ok]; auto. apply tokd_plain_inv. Qed.

Lemma lex_heading_tk r l : lex_heading RENDER r = Ret l -> lr_tk l.
Proof.
  unfold lex_heading, consume_while. destruct (_ <? _); [injection 1 as <-; exact I|].
  destruct (heading_sep _); [|injection 1 as <-; exact I].
  destruct (heading_id _); [|easy]. destruct (forallb _ _); [injection 1 as <-; exact I|].
  destruct (RENDER _ _); cbn [bind]; try easy. injection 1 as <-. exact I.
Qed.
Lemma lex_newlines_tk r : lr_tk (lex_newlines r).
Proof. unfold lex_newlines, consume_while. destruct (_ <=? _); exact I. Qed.
Lemma lex_tabs_go_tk n last r l : lex_tabs_spaces_go n last r = Some l -> lr_tk l.
Proof.
  revert r l; induction n as [|n IH]; intros r l; [easy|]. cbn [lex_tabs_spaces_go].
  unfold consume_while. destruct (_ && _ && _); [injection 1 as <-; exact I|].
  destruct (_ && _ && _); [injection 1 as <-; exact I|].
  destruct (consume_until_tail_is _ _) as [line r2].
  destruct (_ && _ && _); [injection 1 as <-; exact I|].
  destruct (_ || _ || _); [injection 1 as <-; exact I|].
  destruct (str_eqb _ _); [injection 1 as <-; exact I|].
  destruct (_ || _); [|injection 1 as <-; exact I].
  destruct (lex_tabs_spaces_go n last r2) as [[[] ?|]|]; try easy; injection 1 as <-; exact I.
Qed.
Lemma lex_tabs_tk last r l : lex_tabs_spaces last r = Ret l -> lr_tk l.
Proof.
  unfold lex_tabs_spaces. destruct (lex_tabs_spaces_go _ _ _) eqn:E; [|easy].
  apply lex_tabs_go_tk in E. now injection 1 as <-.
Qed.
Lemma lex_numbers_tk r l : lex_numbers r = Ret l -> lr_tk l.
Proof.
  destruct r as [|c r]; [easy|]. cbn [lex_numbers].
  destruct (next_if_eq _ r); [|injection 1 as <-; exact I].
  destruct (next_if_eq _ _); unfold consume_while; injection 1 as <-; exact I.
Qed.
Lemma lex_tilde_tk r : lr_tk (lex_tilde r).
Proof.
  unfold lex_tilde, consume_while. destruct (length _) as [|[|[|]]]; try exact I.
  destruct (_ =? _); exact I.
Qed.
Lemma lex_backticks_tk r : lr_tk (lex_backticks r).
Proof.
  unfold lex_backticks, consume_while. destruct (_ =? 3).
  - destruct (match next_if_eq c_nl _ with Some _ => _ | None => _ end) as [lang r2].
    destruct (_ =? _); exact I.
  - destruct (consume_until_tail_is _ _). destruct (negb _); [exact I|].
    destruct (_ && _); exact I.
Qed.
Lemma lex_escaped_tk r : lr_tk (lex_escaped_character r).
Proof.
  unfold lex_escaped_character, consume_while. destruct (next r); [exact I|].
  destruct (ceq _ _); exact I.
Qed.
Lemma lex_link_dest_tk t r r0 : lr_tk (lex_link_dest t r r0).
Proof.
  unfold lex_link_dest.
  repeat match goal with |- lr_tk (match ?x with _ => _ end) => destruct x end; exact I.
Qed.
Lemma lex_links_tk r l : lex_links r = Ret l -> lr_tk l.
Proof.
  unfold lex_links, consume_while. destruct (next_if_eq _ r); [|injection 1 as <-; exact I].
  destruct (next_if_eq _ _); [|injection 1 as <-; exact I].
  destruct (if starts_with _ _ then _ else _).
  - unfold lex_footnote. destruct (footnote_lines _ _) as [[|]|]; try easy.
    + destruct (existsb _ _); injection 1 as <-; exact I.
    + injection 1 as <-. exact I.
  - destruct (next_if_eq _ _); injection 1 as <-; [apply lex_link_dest_tk | exact I].
Qed.
Lemma lex_images_tk r l : lex_images r = Ret l -> lr_tk l.
Proof.
  unfold lex_images. destruct (next_if_eq _ r); [|injection 1 as <-; exact I].
  destruct (lex_links _) as [[[]|]| |]; cbn [bind]; try easy; injection 1 as <-; exact I.
Qed.
Lemma lex_strong_tk n mk r r1 : (forall s, tk (mk s)) -> lr_tk (lex_strong n mk r r1).
Proof. intros H. unfold lex_strong, consume_while. destruct (_ =? _); [apply H | exact I]. Qed.

Lemma line_child r r' : ssuffix r' r -> length r <= S k -> child_ok k (Plaintext (take_while not_nl r')).
Proof.
  intros S L. right. split; [apply flat_take_nl|].
  apply ssuffix_length in S. pose proof (infix_length _ _ (infix_take_while not_nl r')). lia.
Qed.
Lemma lex_asterisk_tk c r0 : ceq c c_star || ceq c c_under = true -> length (c :: r0) <= S k ->
  lr_tk (lex_asterisk_underscore (c :: r0)).
Proof.
  intros Hc L. unfold lex_asterisk_underscore, consume_while. set (f := fun c => _). set (r := c :: r0) in *.
  assert (S1 : ssuffix (drop_while f r) r) by (apply ssuffix_drop_while; unfold f; now rewrite Hc).
  destruct (if _ =? 1 then _ else None) as [r2|] eqn:E.
  - cbn [lr_tk tokc1]. constructor; [|constructor].
    destruct (_ =? 1); [|easy]. apply next_if_eq_some in E. apply (line_child r); [|auto].
    apply ssuffix_trans_r with (drop_while f r); [|exact S1]. exists [c_sp]. exact E.
  - destruct (forallb _ _ && peek_is _ _); [exact I|].
    destruct (length (take_while f r)) as [|[|[|[|]]]]; try exact I; try (now apply lex_strong_tk);
      destruct (forallb _ _ || forallb _ _); exact I.
Qed.
Lemma list_paragraphs_child n r r0 toks r' : ssuffix r r0 -> length r0 <= S k ->
  list_paragraphs n r = Some (toks, r') -> Forall (child_ok k) toks.
Proof.
  intros S L. revert r toks r' S; induction n as [|n IH]; intros r toks r' S; [easy|].
  cbn [list_paragraphs]. destruct (ahead_is _ r); [|injection 1 as <- _; constructor].
  unfold consume_while. destruct (list_paragraphs n _) as [[ts r2]|] eqn:E; [|easy].
  injection 1 as <- _. constructor.
  - apply (line_child r0); [|auto]. suf.
  - eapply IH; [|exact E]. suf.
Qed.
Lemma list_item_tk line toks r r0 l : Forall (child_ok k) toks -> ssuffix r r0 -> length r0 <= S k ->
  list_item_token LEX line toks r = Ret l -> lr_tk l.
Proof.
  intros F S L. unfold list_item_token. destruct (starts_with _ line); [injection 1 as <-; exact I|].
  destruct (_ || _); [injection 1 as <-; exact I|].
  destruct (peek_line_ahead r); [|injection 1 as <-; exact F].
  unfold consume_line_ahead. destruct (split_line r) as [sub r5] eqn:E.
  assert (FL : flat sub) by (eapply flat_line; exact E). apply split_line_app in E.
  assert (LS : length sub <= k).
  { apply ssuffix_length in S. apply (f_equal (@length _)) in E. rewrite app_length in E. lia. }
  assert (K : forall u, infix u sub -> forall ts, LEX u [] = Ret ts -> Forall (child_ok k) (toks ++ ts)).
  { intros u IU ts EU. apply Forall_app. split; [auto|].
    eapply Forall_impl; [apply tokf_child|]. eapply LEX_flat; [| |exact EU].
    - eapply flat_infix; eauto.
    - apply infix_length in IU. lia. }
  destruct (starts_with _ s).
  { destruct (LEX sub []) as [ts| |] eqn:EU; cbn [bind]; try easy. injection 1 as <-.
    apply (K sub); [apply infix_refl | auto]. }
  destruct (starts_with _ s); [|injection 1 as <-; exact F].
  destruct (LEX (skipn 1 sub) []) as [ts| |] eqn:EU; cbn [bind]; try easy. injection 1 as <-.
  apply (K (skipn 1 sub)); [apply infix_skipn | auto].
Qed.
Lemma lex_plus_minus_tk c r0 l : ceq c c_minus || ceq c c_plus = true -> length (c :: r0) <= S k ->
  lex_plus_minus LEX (c :: r0) = Ret l -> lr_tk l.
Proof.
  intros Hc L. unfold lex_plus_minus, consume_while. set (f := fun c => _). set (r := c :: r0) in *.
  assert (S1 : ssuffix (drop_while f r) r) by now apply ssuffix_drop_while.
  destruct (length (take_while f r)) as [|[|[|]]]; try (injection 1 as <-; exact I).
  destruct (list_paragraphs _ _) as [[m r3]|] eqn:E; [|easy].
  assert (S2 : ssuffix (drop_while not_nl (drop_while f r)) r) by suf.
  pose proof (list_paragraphs_child _ _ r _ _ S2 L E) as FM.
  apply list_paragraphs_suffix in E. apply (list_item_tk _ _ _ r); [|suf|auto].
  constructor; [|auto]. now apply (line_child r).
Qed.
Lemma lex_blockquotes_tk r0 : length (c_gt :: r0) <= S k -> lr_tk (lex_blockquotes (c_gt :: r0)).
Proof.
  intros L. unfold lex_blockquotes, consume_while.
  assert (S1 : ssuffix (drop_while (ceq c_gt) (c_gt :: r0)) (c_gt :: r0)) by (apply ssuffix_drop_while; apply ceq_refl).
  destruct (_ || _); [|exact I]. cbn [lr_tk tokc1]. apply ssuffix_length in S1.
  pose proof (infix_length _ _ (infix_take_while not_nl (drop_while (ceq c_gt) (c_gt :: r0)))). lia.
Qed.
Lemma lex_pipes_tk r l : length r <= S k -> lex_pipes LEX r = Ret l -> lr_tk l.
Proof.
  intros L. unfold lex_pipes. destruct (table_lines _ _) as [[lines r1]|] eqn:E; [|easy].
  pose proof (table_lines_nl _ _ _ _ E) as NL. rewrite Forall_forall in NL.
  apply table_lines_ok in E as (_ & F). rewrite Forall_forall in F.
  destruct lines as [|h [|a b]]; try (injection 1 as <-; exact I).
  destruct (_ <? _); [injection 1 as <-; exact I|]. destruct (negb _); [injection 1 as <-; exact I|].
  destruct (mapM _ b) as [rows| |] eqn:M; cbn [bind]; try easy. injection 1 as <-.
  cbn [lr_tk tokc1]. apply Forall_forall. intros row IR.
  destruct (mapM_ret _ _ _ M _ IR) as (x & Ix & Ex).
  destruct (lex_row LEX x) as [cs| |] eqn:R; cbn [bind] in Ex; try easy. apply Ret_inj in Ex. subst row.
  apply Forall_forall. intros [al ct] IC. apply in_combine_r in IC. cbn [snd].
  unfold lex_row in R. destruct (mapM_ret _ _ _ R _ IC) as (e & Ie & Ee).
  destruct (LEX e []) as [ts| |] eqn:Q; cbn [bind] in Ee; try easy. apply Ret_inj in Ee. subst ct.
  assert (FE : Forall (tokf k) ts).
  { apply cells_infix in Ie. destruct (F x ltac:(now do 2 right)) as (q & Sq & Iq).
    eapply LEX_flat; [| |exact Q].
    - eapply flat_infix; [exact Ie|]. apply flat_no_nl. now apply (NL x); do 2 right.
    - apply ssuffix_length in Sq. apply infix_length in Ie, Iq. lia. }
  rewrite Forall_forall in *. intros t It. apply filter_In in It as [It _]. auto.
Qed.

(** A block. *)
Lemma parse_details_cases R x r : details_closed R -> length R <= S k ->
  R = lit "<details>" ++ x ++ r -> x = [c_nl] \/ x = [c_cr; c_nl] ->
  (exists e r', parse_details LEX LOOP r = Ret (LErr e r')) \/
  exists summary w r4, details_closed w /\ length w <= k /\
    parse_details LEX LOOP r = bind (LEX w []) (fun toks => Ret (LOk (Detail summary toks) r4)).
Proof.
  intros H L E X. unfold parse_details, consume_while.
  set (f := fun c : char => negb (ceq c c_nl) && negb (ceq c c_cr)).
  set (sm := take_while f r). set (r1 := drop_while f r).
  assert (ER : r = sm ++ r1) by (symmetry; apply take_drop).
  destruct (starts_with (lit "<summary>") sm) eqn:S1; cbn [negb orb]; [|left; eauto].
  destruct (ends_with (lit "</summary>") sm) eqn:S2; cbn [negb]; [|left; eauto].
  apply starts_with_iff in S1 as [line S1]. rewrite S1, strip_prefix_app.
  assert (NF : forall c, In c line -> f c = true).
  { intros c Ic. pose proof (take_while_forall f r) as FF. fold sm in FF.
    apply (proj1 (forallb_forall _ _) FF). rewrite S1. apply in_or_app. now right. }
  set (r2 := skip_if_eq c_cr r1).
  assert (SUF : suffix r2 R).
  { rewrite E, ER. subst r2. destruct (skip_if_eq_suffix c_cr r1) as [y Y].
    exists (lit "<details>" ++ x ++ sm ++ y). rewrite Y at 1. now rewrite <- !app_assoc. }
  assert (LR : length r2 <= k).
  { assert (SR : suffix r2 r1) by apply skip_if_eq_suffix. apply suffix_length in SR.
    rewrite E, ER in L. rewrite !app_length in L. cbn in L. lia. }
  assert (OC : occurs o_tag r2 = 0 \/ occurs o_tag r2 <> occurs c_tag r2).
  { destruct (occurs o_tag r2) as [|n] eqn:Z; [now left|]. right. rewrite <- Z.
    assert (IB : infix o_tag (x ++ r)).
    { destruct (skip_if_eq_suffix c_cr r1) as [y Y].
      apply infix_trans with r2.
      - destruct (contains o_tag r2) eqn:K; [now apply contains_iff|]. exfalso.
        assert (occurs o_tag r2 = 0) as Z0; [|lia]. apply occurs_0; [easy|].
        rewrite <- contains_iff, K. discriminate.
      - exists (x ++ sm ++ y), []. rewrite app_nil_r, ER. fold r2 in Y. rewrite Y at 1.
        now rewrite <- !app_assoc. }
    destruct (H [] (x ++ r) E IB) as [N T].
    destruct (T line r1) as [T1 T2].
    - intros I. apply NF in I. discriminate.
    - rewrite ER, S1. destruct X as [-> | ->]; [left | right]; cbn [app]; now rewrite <- ?app_assoc.
    - destruct (summary_counts x sm line r1 X S1 S2 T1 T2) as [A B].
      fold r2 in A, B. rewrite <- A, <- B. now rewrite <- ER. }
  right.
  pose proof (details_text_fine LOOP r2) as FI. pose proof (details_text_ends LOOP r2 OC ltac:(lia)) as EN.
  assert (EQ : forall summary,
    match (let (text0, r3) := consume_until_tail_is (lit "</details>") r2 in
           match (if contains (lit "<details>") text0 then details_loop LOOP r2 r3 text0 else Some (text0, r3)) with
           | None => @Hang lres
           | Some (text, r4) => bind (LEX (or_empty (strip_suffix (lit "</details>") text)) [])
                                  (fun toks => Ret (LOk (Detail summary toks) r4))
           end) with z => z end =
    match details_text LOOP r2 with
    | None => Hang
    | Some (text, r4) => bind (LEX (body_of text) []) (fun toks => Ret (LOk (Detail summary toks) r4))
    end).
  { intros summary. unfold details_text. change (lit "</details>") with c_tag. change (lit "<details>") with o_tag.
    destruct (consume_until_tail_is c_tag r2) as [t0 r3]. reflexivity. }
  cbv beta iota in EQ. rewrite EQ. clear EQ.
  destruct (details_text LOOP r2) as [[text r4]|] eqn:DT; [|easy].
  exists (or_empty (strip_suffix (lit "</summary>") line)), (body_of text), r4.
  assert (IT : infix (body_of text) r2).
  { apply infix_trans with text; [apply infix_or_empty_suffix|].
    unfold details_text in DT. destruct (consume_until_tail_is c_tag r2) as [t0 r3] eqn:K.
    apply consume_until_tail_app in K.
    assert (infix t0 r2) as I0 by (rewrite K; now exists [], r3).
    destruct (contains o_tag t0).
    - apply details_loop_suffix in DT as [_ [->|I1]]; auto.
    - now injection DT as <- _. }
  split; [|split; [apply infix_length in IT; lia | reflexivity]].
  apply (closed_body R); [auto| |eapply FI; eauto].
  eapply infix_trans; [exact IT|]. now apply suffix_infix.
Qed.
Lemma parse_details_doc R x r : details_closed R -> length R <= S k ->
  R = lit "<details>" ++ x ++ r -> x = [c_nl] \/ x = [c_cr; c_nl] ->
  parse_details LEX LOOP r <> Hang /\ (forall l, parse_details LEX LOOP r = Ret l -> lr_tk l).
Proof.
  intros H L E X. destruct (parse_details_cases R x r H L E X) as [(e & r' & ->)|(sm & w & r4 & W & LW & ->)].
  - split; [easy|]. intros l. injection 1 as <-. exact I.
  - split.
    + apply bind_nh; [now apply LEX_doc_nh | easy].
    + intros l. destruct (LEX w []) as [ts| |] eqn:Q; cbn [bind]; try easy. injection 1 as <-.
      cbn [lr_tk tokc1]. eapply LEX_doc; eauto.
Qed.

(** Every document [DOC] whose blocks have suitable tokens. *)
Variable DOC : str -> Prop.
Hypothesis DOC_suffix : forall a s, suffix a s -> DOC s -> DOC a.
Hypothesis DET_tk : forall R x r l, DOC R -> length R <= S k ->
  R = lit "<details>" ++ x ++ r -> x = [c_nl] \/ x = [c_cr; c_nl] ->
  parse_details LEX LOOP r = Ret l -> lr_tk l.
Lemma lex_side_carrot_tk r l : DOC r -> length r <= S k ->
  lex_side_carrot LEX LOOP r = Ret l -> lr_tk l.
Proof.
  intros H L. unfold lex_side_carrot, consume_while.
  destruct (next_if_eq _ r) as [r1|] eqn:E1; [|injection 1 as <-; exact I]. apply next_if_eq_some in E1.
  set (f := fun c => _). set (s := take_while f r1).
  assert (R1 : r1 = s ++ drop_while f r1) by (symmetry; apply take_drop).
  destruct (next_if_eq c_gt _) as [r3|] eqn:E3; [|injection 1 as <-; exact I]. apply next_if_eq_some in E3.
  destruct (str_eqb s _) eqn:ES.
  - apply str_eqb_eq in ES.
    destruct (next_if_eq _ _) as [r5|] eqn:E5; [|injection 1 as <-; exact I]. apply next_if_eq_some in E5.
    destruct (skip_if_eq_cases c_cr r3) as [Y|Y].
    + apply (DET_tk r [c_cr; c_nl]); [auto|auto| |auto]. rewrite E1, R1, ES, E3, Y, E5. reflexivity.
    + apply (DET_tk r [c_nl]); [auto|auto| |auto]. rewrite Y in E5. rewrite E1, R1, ES, E3, E5. reflexivity.
  - destruct s; [injection 1 as <-; exact I|]. destruct (existsb _ _); [injection 1 as <-; exact I|].
    destruct (validate_link _) as [[u [|]]|]; injection 1 as <-; exact I.
Qed.
Lemma dispatch_tk ig last c r l : DOC (c :: r) -> length (c :: r) <= S k ->
  dispatch LEX RENDER LOOP ig last c (c :: r) = Ret l -> lr_tk l.
Proof.
  intros H L. unfold dispatch.
  destruct (ceq c c_hash && _); [apply lex_heading_tk|].
  destruct (ceq c c_nl); [injection 1 as <-; apply lex_newlines_tk|].
  destruct (ceq c c_sp || _); [apply lex_tabs_tk|].
  destruct (is_digit c); [apply lex_numbers_tk|].
  destruct (ceq c c_star || _) eqn:E1; [injection 1 as <-; now apply lex_asterisk_tk|].
  destruct (ceq c c_minus || _) eqn:E2; [now apply lex_plus_minus_tk|].
  destruct (ceq c c_gt) eqn:E3; [apply ceq_eq in E3 as ->; injection 1 as <-; now apply lex_blockquotes_tk|].
  destruct (ceq c c_tilde); [injection 1 as <-; apply lex_tilde_tk|].
  destruct (ceq c c_tick); [injection 1 as <-; apply lex_backticks_tk|].
  destruct (ceq c c_lbrk); [apply lex_links_tk|].
  destruct (ceq c c_bang); [apply lex_images_tk|].
  destruct (ceq c c_lt); [now apply lex_side_carrot_tk|].
  destruct (ceq c c_pipe); [now apply lex_pipes_tk|].
  destruct (ceq c c_bslash); injection 1 as <-; [apply lex_escaped_tk | exact I].
Qed.
Lemma lex_loop_tk n ig last r ts : DOC r -> length r <= S k ->
  lex_loop LEX RENDER LOOP n ig last r = Ret ts -> Forall tk ts.
Proof.
  revert last r ts; induction n as [|n IH]; intros last r ts H L; [easy|]. cbn [lex_loop].
  destruct (next_token _ _ _ _ _ r) as [[[t r']|]| |] eqn:Q; cbn [bind]; try easy.
  2:{ injection 1 as <-. constructor. }
  destruct (lex_loop _ _ _ n _ _ r') as [ts'| |] eqn:Q2; cbn [bind]; try easy. injection 1 as <-.
  pose proof (next_token_progress _ _ _ _ _ _ _ _ Q) as P. constructor.
  - destruct r as [|c r]; [easy|]. cbn [next_token] in Q.
    destruct (dispatch _ _ _ _ _ _ _) as [[t0 q|e q]| |] eqn:D; cbn [bind] in Q; try easy.
    + injection Q as <- _. now apply dispatch_tk in D.
    + injection Q as <- _. exact I.
  - eapply IH; [| |exact Q2].
    + eapply DOC_suffix; [|exact H]. now apply ssuffix_suffix.
    + apply ssuffix_length in P. lia.
Qed.
End Doc.

(** All levels. *)
Definition FD (k : nat) : nat := k + F QF k.
Lemma FD_step k f : FD (S k) <= f -> exists f', f = S f' /\ FD k <= f' /\ k <= f' /\ F QF k <= f'.
Proof.
  unfold FD, F, QF. intros H. destruct f as [|f]; [lia|]. exists f. repeat split; lia.
Qed.
Definition LD (k : nat) : Prop := forall f s ig, FD k <= f -> details_closed s -> length s <= k ->
  lex f s ig <> Hang /\ (forall ts, lex f s ig = Ret ts -> Forall (tokc k) ts).
Definition PD (k : nat) : Prop := forall f ts, FD k <= f -> Forall (tokc k) ts -> parse f ts <> Hang.

Lemma LD_step k : LD k -> PD k -> LD (S k).
Proof.
  intros HL HP f s ig Hf H L. destruct (FD_step _ _ Hf) as (f' & -> & Hf' & Kf & Ff).
  destruct (flat_LP k) as [FL FP].
  assert (G1 : forall s, flat s /\ length s <= k -> GF k s) by (intros s0 K; now right).
  assert (LX : forall s ig, flat s /\ length s <= k -> lex f' s ig <> Hang).
  { intros s' ig' H'. now apply (FL f' s' ig' Ff (G1 _ H')). }
  assert (REN : forall s ig, flat s /\ length s <= k -> bind (lex f' s ig) (parse f') <> Hang).
  { intros s' ig' H'. destruct (FL f' s' ig' Ff (G1 _ H')) as [A B].
    apply bind_nh; [auto|]. intros ts E. apply FP; auto. }
  assert (LFL : forall s ig ts, flat s -> length s <= k -> lex f' s ig = Ret ts -> Forall (tokf k) ts).
  { intros s' ig' ts' A B. apply (FL f' s' ig' Ff). now apply G1. }
  assert (LDO : forall s ig ts, details_closed s -> length s <= k -> lex f' s ig = Ret ts -> Forall (tokc k) ts).
  { intros s' ig' ts' A B. now apply (HL f' s' ig' Hf' A B). }
  assert (LDN : forall s ig, details_closed s -> length s <= k -> lex f' s ig <> Hang).
  { intros s' ig' A B. now apply (HL f' s' ig' Hf' A B). }
  split; cbn [lex].
  - apply (lex_loop_nh _ _ _ (fun s => details_closed s /\ length s <= S k)
             (fun s => flat s /\ length s <= k)); auto.
    + intros a b Sf [A B]. split; [eapply closed_suffix; eauto|]. apply suffix_length in Sf. lia.
    + intros r r' a [A B] Sf If Fl. split; [auto|]. apply ssuffix_length in Sf. apply infix_length in If. lia.
    + intros R x r [A B] E X.
      now apply (parse_details_doc (lex f') f' k (tokc k) LDO LDN Kf R x r).
  - intros ts. cbn [tokc].
    apply (lex_loop_tk (lex f') _ f' k (tokc k)) with (DOC := details_closed); auto.
    + apply closed_suffix.
    + intros R x r l A B E X. now apply (parse_details_doc (lex f') f' k (tokc k) LDO LDN Kf R x r).
Qed.
Lemma PD_step k : LD k -> PD k -> PD (S k).
Proof.
  intros HL HP f ts Hf FT. destruct (FD_step _ _ Hf) as (f' & -> & Hf' & Kf & Ff).
  destruct (flat_LP k) as [FL FP].
  assert (REN : forall s, GF k s -> bind (lex f' s []) (parse f') <> Hang).
  { intros s' H'. destruct (FL f' s' [] Ff H') as [A B].
    apply bind_nh; [auto|]. intros ts' E. apply FP; auto. }
  cbn [parse]. unfold parse_body. apply bind_nh; [|easy]. generalize pinit.
  induction FT as [|t ts H FT IH]; intros p; cbn [parse_loop]; [easy|].
  apply bind_nh; [|intros; apply IH]. cbn [tokc] in H. clear IH. set (p1 := pre t p). clearbody p1.
  destruct t; cbn [body tokc1] in *; try easy.
  - apply bind_nh; [|easy]. apply mapM_nh. intros x Ix.
    rewrite Forall_forall in H. specialize (H _ Ix). destruct x as [tx| | | | | | | | | | | | | | | | | | | | |]; cbn [list_child]; try easy.
    cbn [child_ok] in H.
    destruct (starts_with _ tx); (apply bind_nh; [|easy]); apply REN;
      (eapply G_infix; [| |exact H]).
    + intros a b. apply flat_infix.
    + eapply infix_trans; [apply infix_trim_start_by | apply infix_skipn].
    + intros a b. apply flat_infix.
    + apply infix_trim_start_by.
  - match goal with |- context [is_empty ?x] => destruct (is_empty x); [easy|] end. apply bind_nh; [|easy].
    match goal with |- bind (lex f' (sanitize (trim_start_by _ ?x)) []) _ <> _ =>
      change (render f' (sanitize (trim_start_by (ceq c_sp) x)) <> Hang) end.
    apply quote_nh. unfold FD, F, QF in *. lia.
  - apply bind_nh; [|easy]. now apply HP.
  - destruct rows as [|row rows]; [easy|]. cbn [row0_len]. destruct (negb _); [easy|].
    apply bind_nh; [|easy]. unfold table_html. apply bind_nh; [|easy].
    apply mapM_nh. intros rw Irw. rewrite Forall_forall in H. specialize (H _ Irw).
    unfold row_html. apply bind_nh; [|easy]. apply mapM_nh. intros e Ie.
    rewrite Forall_forall in H. specialize (H _ Ie). unfold cell_html.
    apply bind_nh; [|easy]. apply mapM_nh. intros x Ix.
    destruct x; cbn [cell_token]; try easy; now apply FP.
Qed.
Lemma LPD k : LD k /\ PD k.
Proof.
  induction k as [|k [IL IP]]; [|split; [now apply LD_step | now apply PD_step]]. split.
  - intros [|f] s ig Hf _ L; [unfold FD, F in Hf; lia|]. destruct s; [|cbn in L; lia].
    cbn [lex lex_loop length next_token bind]. split; [easy|]. injection 1 as <-. constructor.
  - intros [|f] ts Hf FT; [unfold FD, F in Hf; lia|]. destruct FT as [|t ts []].
    cbn [parse]. unfold parse_body. apply bind_nh; easy.
Qed.
Lemma render_nh_closed f s ig :
  details_closed s -> 310 + 10 * length s <= f -> render_ignore f s ig <> Hang.
Proof.
  intros H Hf. destruct (LPD (length s)) as [HL HP].
  assert (FF : FD (length s) <= f) by (unfold FD, F, QF; lia).
  destruct (HL f s ig FF H (le_n _)) as [A B]. unfold render_ignore.
  apply bind_nh; [auto|]. intros. apply HP; auto.
Qed.

Lemma enough_fuel n s :
  (forall f, n <= f -> render_ignore f s [] <> Hang) -> ~ runs_forever s.
Proof. intros H R. exact (H n (le_n n) (R n)). Qed.
Lemma result_of n s :
  (forall f, n <= f -> render_ignore f s [] <> Hang) -> ~ crashes s -> exists h, renders s h.
Proof.
  intros H K. specialize (H n (le_n n)). destruct (render_ignore n s []) as [h| |] eqn:E.
  - exists h, n. exact E.
  - exfalso. apply K. exists n. exact E.
  - easy.
Qed.
Lemma closed_terminates s : details_closed s -> ~ runs_forever s.
Proof.
  intros H. apply enough_fuel with (310 + 10 * length s).
  intros f L. now apply render_nh_closed.
Qed.

(** Two classes of such documents. *)
Lemma single_closed s :
  (forall x, ~ infix (lit "<details>" ++ x ++ lit "<details>") s) -> details_closed s.
Proof.
  intros H a b E (x & y & B). exfalso. apply (H x). exists a, y. now rewrite E, B, <- !app_assoc.
Qed.

(** A text whose end cuts no tag. *)
Definition whole (x : str) : Prop :=
  (forall z, occurs o_tag (x ++ z) = occurs o_tag x + occurs o_tag z) /\
  (forall z, occurs c_tag (x ++ z) = occurs c_tag x + occurs c_tag z) /\
  (forall z a b, x ++ z = a ++ o_tag ++ b ->
     (exists b0, x = a ++ o_tag ++ b0 /\ b = b0 ++ z) \/ (exists a0, z = a0 ++ o_tag ++ b)).
Lemma whole_gt x : gt_end x -> whole x.
Proof.
  intros G. split; [intros; now apply O_app|]. split; [intros; now apply C_app|].
  intros z a b. now apply open_split.
Qed.
Lemma occurs_no_lt p x z : ~ In c_lt x -> occurs (c_lt :: p) (x ++ z) = occurs (c_lt :: p) z.
Proof.
  induction x as [|c x IH]; intros N; [reflexivity|]. cbn [app occurs starts_with].
  destruct (ceq c_lt c) eqn:E; [apply ceq_eq in E; exfalso; apply N; now left|].
  cbn [andb plus]. apply IH. intros I. apply N. now right.
Qed.
Lemma occurs_no_lt_0 p x : ~ In c_lt x -> occurs (c_lt :: p) x = 0.
Proof. intros N. rewrite <- (app_nil_r x). now rewrite occurs_no_lt. Qed.
Lemma whole_text x : ~ In c_lt x -> whole x.
Proof.
  intros N. split; [|split].
  - intros z. unfold o_tag. change (lit "<details>") with (c_lt :: lit "details>").
    rewrite occurs_no_lt by exact N. now rewrite (occurs_no_lt_0 _ x N).
  - intros z. unfold c_tag. change (lit "</details>") with (c_lt :: lit "/details>").
    rewrite occurs_no_lt by exact N. now rewrite (occurs_no_lt_0 _ x N).
  - intros z a b E. apply app_split in E as [(m & -> & ->)|(m & -> & E)]; [right; now exists m|].
    destruct m as [|c m]; [right; exists []; cbn [app] in *; now rewrite <- E|].
    exfalso. cbn [app] in E. unfold o_tag in E. injection E as E _. apply N, in_or_app. right. now left.
Qed.
Lemma whole_app x y : whole x -> whole y -> whole (x ++ y).
Proof.
  intros (A1 & A2 & A3) (B1 & B2 & B3). split; [|split].
  - intros z. rewrite <- app_assoc, A1, B1, A1. lia.
  - intros z. rewrite <- app_assoc, A2, B2, A2. lia.
  - intros z a b. rewrite <- app_assoc. intros E.
    destruct (A3 _ _ _ E) as [(b0 & -> & ->)|(a0 & E0)].
    + left. exists (b0 ++ y). now rewrite <- !app_assoc.
    + assert (a = x ++ a0) as ->.
      { rewrite E0, app_assoc in E. now apply app_inv_tail in E. }
      destruct (B3 _ _ _ E0) as [(b0 & -> & ->)|(a1 & ->)].
      * left. exists b0. split; [now rewrite <- !app_assoc | auto].
      * right. now exists a1.
Qed.

(** What follows an opening tag: more closing than opening tags, and a summary
    without tags. *)
Definition block_tail (b : str) : Prop :=
  occurs o_tag b < occurs c_tag b /\
  forall z line c, ~ In c_nl line ->
    b ++ z = c_nl :: lit "<summary>" ++ line ++ c \/ b ++ z = c_cr :: c_nl :: lit "<summary>" ++ line ++ c ->
    ~ infix o_tag line /\ ~ infix c_tag line.
Definition nest_ok (x : str) : Prop :=
  whole x /\ occurs o_tag x = occurs c_tag x /\ forall a b, x = a ++ o_tag ++ b -> block_tail b.

Lemma whole_suffix a b : whole (a ++ o_tag ++ b) -> forall y,
  occurs o_tag (b ++ y) = occurs o_tag b + occurs o_tag y /\
  occurs c_tag (b ++ y) = occurs c_tag b + occurs c_tag y.
Proof.
  intros (A & B & _) y. specialize (A y). specialize (B y). rewrite <- !app_assoc in A, B.
  change (o_tag ++ b ++ y) with (c_lt :: lit "details>" ++ b ++ y) in A, B.
  change (o_tag ++ b) with (c_lt :: lit "details>" ++ b) in A, B.
  rewrite !O_lt in A. rewrite !C_lt in B.
  change (c_lt :: lit "details>" ++ b ++ y) with (o_tag ++ b ++ y) in A, B.
  change (c_lt :: lit "details>" ++ b) with (o_tag ++ b) in A, B.
  rewrite !O_open in A. rewrite !C_open in B. lia.
Qed.
Lemma line_no_tags summary rest line c : ~ In c_lt summary -> ~ In c_nl line ->
  summary ++ lit "</summary>" ++ c_nl :: rest = line ++ c ->
  ~ infix o_tag line /\ ~ infix c_tag line.
Proof.
  intros N1 N2 E. rewrite app_assoc in E. apply app_split in E as [(m & E & M)|(m & E & _)].
  - destruct m as [|d m].
    + rewrite app_nil_r in E. subst line. split; apply occurs_0; try easy.
      * change (summary ++ lit "</summary>") with (summary ++ c_lt :: lit "/summary>"). rewrite O_lt.
        unfold o_tag at 1. change (lit "<details>") with (c_lt :: lit "details>").
        rewrite (occurs_no_lt_0 _ _ N1). reflexivity.
      * change (summary ++ lit "</summary>") with (summary ++ c_lt :: lit "/summary>"). rewrite C_lt.
        unfold c_tag at 1. change (lit "</details>") with (c_lt :: lit "/details>").
        rewrite (occurs_no_lt_0 _ _ N1). reflexivity.
    + exfalso. cbn [app] in M. injection M as <- _. apply N2. rewrite E. apply in_or_app. right. now left.
  - assert (K : forall w, w = o_tag \/ w = c_tag -> ~ infix w line).
    { intros w W I. assert (J : infix w (summary ++ lit "</summary>")).
      { eapply infix_trans; [exact I|]. rewrite E. now exists [], m. }
      revert J. destruct W as [-> | ->]; apply occurs_0; try easy.
      - change (summary ++ lit "</summary>") with (summary ++ c_lt :: lit "/summary>"). rewrite O_lt.
        unfold o_tag at 1. change (lit "<details>") with (c_lt :: lit "details>").
        rewrite (occurs_no_lt_0 _ _ N1). reflexivity.
      - change (summary ++ lit "</summary>") with (summary ++ c_lt :: lit "/summary>"). rewrite C_lt.
        unfold c_tag at 1. change (lit "</details>") with (c_lt :: lit "/details>").
        rewrite (occurs_no_lt_0 _ _ N1). reflexivity. }
    split; apply K; auto.
Qed.

Lemma nest_app x y : nest_ok x -> nest_ok y -> nest_ok (x ++ y).
Proof.
  intros (WX & EX & TX) (WY & EY & TY). split; [now apply whole_app|]. split.
  { rewrite (proj1 WX), (proj1 (proj2 WX)). lia. }
  intros a b E. destruct (proj2 (proj2 WX) _ _ _ E) as [(b0 & -> & ->)|(a0 & ->)].
  - destruct (whole_suffix _ _ WX y) as [A B]. specialize (TX a b0 eq_refl) as [T1 T2].
    split; [lia|]. intros z line c N Q. rewrite <- app_assoc in Q. eauto.
  - now apply (TY a0).
Qed.
Lemma nested_ok s : nested s -> nest_ok s.
Proof.
  induction 1 as [x N|summary x N1 N2 _ (WX & EX & TX)|x y _ IHx _ IHy]; [| |now apply nest_app].
  - split; [now apply whole_text|]. split.
    + change o_tag with (c_lt :: lit "details>"). change c_tag with (c_lt :: lit "/details>").
      now rewrite !occurs_no_lt_0.
    + intros a b ->. exfalso. apply N. apply in_or_app. right. now left.
  - set (h := [c_nl] ++ lit "<summary>" ++ summary ++ lit "</summary>" ++ [c_nl]).
    assert (WH : whole h).
    { unfold h. apply whole_app; [apply whole_text; vm_compute; intuition discriminate|].
      apply whole_app; [apply whole_gt; right; now exists (lit "<summary")|].
      apply whole_app; [now apply whole_text|].
      apply whole_app; [apply whole_gt; right; now exists (lit "</summary")|].
      apply whole_text. vm_compute. intuition discriminate. }
    assert (ZH : occurs o_tag h = 0 /\ occurs c_tag h = 0).
    { unfold h. split.
      - change (occurs o_tag ([c_nl] ++ lit "<summary>" ++ summary ++ lit "</summary>" ++ [c_nl]))
          with (occurs o_tag (lit "<summary>" ++ summary ++ lit "</summary>" ++ [c_nl])).
        rewrite O_app by (right; now exists (lit "<summary")).
        rewrite (proj1 (whole_text _ N1)). change o_tag with (c_lt :: lit "details>").
        now rewrite (occurs_no_lt_0 _ _ N1).
      - change (occurs c_tag ([c_nl] ++ lit "<summary>" ++ summary ++ lit "</summary>" ++ [c_nl]))
          with (occurs c_tag (lit "<summary>" ++ summary ++ lit "</summary>" ++ [c_nl])).
        rewrite C_app by (right; now exists (lit "<summary")).
        rewrite (proj1 (proj2 (whole_text _ N1))). change c_tag with (c_lt :: lit "/details>").
        now rewrite (occurs_no_lt_0 _ _ N1). }
    destruct ZH as [Z1 Z2].
    replace (lit "<details>" ++ [c_nl] ++ lit "<summary>" ++ summary ++ lit "</summary>"
             ++ [c_nl] ++ x ++ lit "</details>") with (o_tag ++ h ++ x ++ c_tag)
      by (unfold h; now rewrite <- !app_assoc).
    assert (WC : whole c_tag) by (apply whole_gt; right; now exists (lit "</details")).
    assert (WO : whole o_tag) by (apply whole_gt; right; now exists (lit "<details")).
    assert (CT : occurs o_tag (h ++ x ++ c_tag) = occurs o_tag x /\
                 occurs c_tag (h ++ x ++ c_tag) = S (occurs c_tag x)).
    { destruct WH as (H1 & H2 & _), WX as (X1 & X2 & _).
      rewrite H1, H2, X1, X2, Z1, Z2. change (occurs o_tag c_tag) with 0.
      change (occurs c_tag c_tag) with 1. lia. }
    destruct CT as [C1 C2].
    split; [now apply whole_app, whole_app, whole_app|]. split.
    { rewrite O_open, C_open. lia. }
    intros a b E. destruct (proj2 (proj2 WO) _ _ _ E) as [(b0 & E0 & ->)|(a0 & E0)].
    + destruct a as [|d a].
      2:{ exfalso. apply (f_equal (@length _)) in E0. rewrite !app_length in E0. cbn in E0. lia. }
      assert (b0 = []) as ->.
      { apply (f_equal (@length _)) in E0. rewrite !app_length in E0. cbn in E0. destruct b0; [auto|cbn in E0; lia]. }
      cbn [app]. split; [lia|]. intros z line c N [Q|Q]; [|discriminate Q].
      unfold h in Q. rewrite <- !app_assoc in Q. cbn [app] in Q.
      change (c_nl :: lit "<summary>" ++ summary ++ lit "</summary>" ++ c_nl :: x ++ c_tag ++ z =
              c_nl :: lit "<summary>" ++ line ++ c) in Q.
      injection Q as Q. apply (line_no_tags summary (x ++ c_tag ++ z) line c); auto.
    + destruct (proj2 (proj2 WH) _ _ _ E0) as [(b1 & E1 & ->)|(a1 & E1)].
      { exfalso. assert (I : ~ infix o_tag h) by now apply occurs_0. apply I. exists a0, b1. exact E1. }
      destruct (proj2 (proj2 WX) _ _ _ E1) as [(b1 & -> & ->)|(a2 & E2)].
      * destruct (whole_suffix _ _ WX c_tag) as [A B]. specialize (TX a1 b1 eq_refl) as [T1 T2].
        split; [rewrite A, B; change (occurs o_tag c_tag) with 0; lia|].
        intros z line c N Q. rewrite <- app_assoc in Q. eauto.
      * exfalso. assert (I : ~ infix o_tag c_tag) by now apply occurs_0. apply I. exists a2, b. exact E2.
Qed.
Lemma nested_closed s : nested s -> details_closed s.
Proof.
  intros H a b E _. apply nested_ok in H as (_ & _ & T). destruct (T a b E) as [A B].
  split; [change (occurs o_tag b <> occurs c_tag b); lia|].
  intros line c N Q. apply (B [] line c N). rewrite app_nil_r. exact Q.
Qed.
