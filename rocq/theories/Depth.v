(** * Depth: how deep the calls of [lex], [parse] and [render] nest. *)
From Coq Require Import Ascii String.
From Verif Require Import Strings StringsFacts Token Iter Lexer Parser LexerFacts LexMono NoPanic Termination Outcome
  SizeLex Work WorkFacts.
Open Scope list_scope.

(** A list item in a list item needs a level for each. *)
Lemma nest_lex f n : lex (S f) (nest (S n)) [] = Ret [UnorderedListEntry [Plaintext (c_sp :: nest n)]].
Proof.
  rewrite <- (proj1 (work_erase (S f))). cbn [lex_w charge fst]. unfold charge. cbn [fst]. rewrite nest_length.
  replace (S (2 * S n + 1)) with (S (S (2 * n + 2))) by lia. now rewrite nest_item.
Qed.
Lemma nest_hang n : render n (nest n) = Hang.
Proof.
  induction n as [|n IH]; [reflexivity|]. unfold render, render_ignore in *. rewrite nest_lex. cbn [bind parse].
  unfold parse_body. cbn [parse_loop body mapM list_child].
  change (starts_with [c_tab; c_tab] (c_sp :: nest n)) with false. cbv iota. rewrite nest_child, IH. reflexivity.
Qed.
Theorem deep k : exists s h, length s = 2 * k + 1 /\ renders s h /\ render k s = Hang.
Proof.
  destruct (nest_work k (S k) (le_n _)) as [[h H] _]. rewrite render_w_erase in H.
  exists (nest k), h. split; [apply nest_length|]. split; [now exists (S k)|apply nest_hang].
Qed.

Theorem depth_linear s h : renders s h -> render (310 + 10 * length s) s = Ret h.
Proof.
  intros [f E]. destruct (Nat.le_ge_cases f (310 + 10 * length s)) as [L|L].
  - destruct (render_ignore_mono _ _ s [] L) as [H|H]; unfold render in *; congruence.
  - now rewrite (render_stable _ f s (le_n _) L).
Qed.

(** Texts with nothing that is rendered again. *)
Definition nestable : str := lit "#>-+*_<|".
Lemma flat_dispatch LEX RENDER LOOP LEX' RENDER' LOOP' ig last c r : ~ In c nestable ->
  dispatch LEX RENDER LOOP ig last c r = dispatch LEX' RENDER' LOOP' ig last c r /\
  forall l, dispatch LEX RENDER LOOP ig last c r = Ret l -> calm_l l = true.
Proof.
  intros M.
  assert (forall d, In d nestable -> ceq c d = false) as D by (intros d J; apply ceq_neq; intros ->; contradiction).
  unfold dispatch.
  rewrite (D c_hash), (D c_gt), (D c_minus), (D c_plus), (D c_star), (D c_under), (D c_lt), (D c_pipe) by (vm_compute; tauto).
  cbn [andb orb].
  destruct (ceq c c_nl). { split; [reflexivity|]. injection 1 as <-. apply newlines_calm. }
  destruct (ceq c c_sp || _). { split; [reflexivity|]. apply tabs_spaces_calm. }
  destruct (is_digit c). { split; [reflexivity|]. apply numbers_calm. }
  destruct (ceq c c_tilde). { split; [reflexivity|]. injection 1 as <-. apply tilde_calm. }
  destruct (ceq c c_tick). { split; [reflexivity|]. injection 1 as <-. apply backticks_calm. }
  destruct (ceq c c_lbrk). { split; [reflexivity|]. apply links_calm. }
  destruct (ceq c c_bang). { split; [reflexivity|]. apply images_calm. }
  destruct (ceq c c_bslash). { split; [reflexivity|]. injection 1 as <-. apply escaped_calm. }
  split; [reflexivity|]. now injection 1 as <-.
Qed.
Definition flat_text (s : str) : Prop := forall c, In c s -> ~ In c nestable.
Lemma flat_loop LEX RENDER LOOP LEX' RENDER' LOOP' n : forall ig last r, flat_text r ->
  lex_loop LEX RENDER LOOP n ig last r = lex_loop LEX' RENDER' LOOP' n ig last r /\
  forall ts, lex_loop LEX RENDER LOOP n ig last r = Ret ts -> Forall (fun t => calm t = true) ts.
Proof.
  induction n as [|n IH]; intros ig last r F; [split; [reflexivity|easy]|]. cbn [lex_loop].
  destruct r as [|c r]; [split; [reflexivity|]; cbn; injection 1 as <-; constructor|]. cbn [next_token].
  pose proof (fun t r' => next_token_progress LEX RENDER LOOP ig last (c :: r) t r') as P. cbn [next_token] in P.
  destruct (flat_dispatch LEX RENDER LOOP LEX' RENDER' LOOP' ig last c (c :: r) (F c (or_introl eq_refl))) as [D1 D2].
  rewrite <- D1. destruct (dispatch LEX RENDER LOOP ig last c (c :: r)) as [l| |]; cbn [bind] in *; [|split; [reflexivity|easy]|split; [reflexivity|easy]].
  specialize (D2 l eq_refl).
  assert (forall t r', ssuffix r' (c :: r) -> calm t = true ->
    bind (lex_loop LEX RENDER LOOP n ig (Some t) r') (fun ts => Ret (t :: ts)) =
    bind (lex_loop LEX' RENDER' LOOP' n ig (Some t) r') (fun ts => Ret (t :: ts)) /\
    forall ts, bind (lex_loop LEX RENDER LOOP n ig (Some t) r') (fun ts => Ret (t :: ts)) = Ret ts -> Forall (fun t => calm t = true) ts) as G.
  { intros t r' S C. assert (flat_text r') as F'.
    { intros d J. apply F. eapply infix_In; [apply suffix_infix, ssuffix_suffix; exact S|exact J]. }
    destruct (IH ig (Some t) r' F') as [I1 I2]. rewrite <- I1. split; [reflexivity|].
    intros ts. destruct (lex_loop LEX RENDER LOOP n ig (Some t) r') as [ts'| |]; cbn [bind]; try easy.
    injection 1 as <-. constructor; auto. }
  destruct l as [t r'|e r']; cbn [bind] in *; (apply G; [exact (P _ _ eq_refl)|auto]).
Qed.
Lemma flat_parse R P R' P' ts : Forall (fun t => calm t = true) ts -> parse_body R P ts = parse_body R' P' ts.
Proof.
  intros F. unfold parse_body. f_equal. generalize pinit. induction F as [|t ts C F IH]; intros p; [reflexivity|].
  cbn [parse_loop]. replace (body R P t (pre t p)) with (body R' P' t (pre t p)) by (destruct t; try discriminate C; reflexivity).
  destruct (body R' P' t (pre t p)); cbn [bind]; auto.
Qed.
Theorem flat_shallow s : flat_text s -> exists h, render 1 s = Ret h.
Proof.
  intros F.
  assert (exists h, renders s h) as [h [f E]].
  { apply result_of with (310 + 10 * length s).
    - intros f L. apply render_nh_closed; [|exact L]. intros a b -> _. exfalso. apply (F c_lt); [|vm_compute; tauto].
      apply in_or_app. right. now left.
    - apply id_safe_never_crashes, no_custom_id_safe. left. intros (a & b & ->). apply (F c_hash); [|vm_compute; tauto].
      apply in_or_app. right. right. now left. }
  destruct f as [|f]; [discriminate E|]. exists h. revert E. unfold render, render_ignore. cbn [lex].
  destruct (flat_loop (lex f) (fun s ig => bind (lex f s ig) (parse f)) f (lex 0) (fun s ig => bind (lex 0 s ig) (parse 0)) 0
    (S (length s)) [] None s F) as [L1 L2].
  rewrite L1 in *. destruct (lex_loop _ _ 0 _ _ _ _) as [ts| |]; cbn [bind]; try easy. cbn [parse].
  intros E. rewrite <- E. symmetry. apply flat_parse, L2. reflexivity.
Qed.
