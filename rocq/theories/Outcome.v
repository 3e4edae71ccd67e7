(** * Outcome: the outcome of every document is reached with linear fuel.

    A document that has no outcome at recursion depth [310 + 10 n], [n] its length,
    has none at any depth: the only source of endless loops is the loop over the
    text of a details block (lexer.rs:892), and it is endless as soon as it comes
    to the end of the text. *)
From Coq Require Import Ascii String.
From Verif Require Import Strings StringsFacts SanitizeFacts Token Iter Lexer Parser
  LexerFacts LexMono Master NoPanic DetailsFacts DetailsBody SpecRobust Termination.
Open Scope list_scope.

(** ** The loop over the text of a block *)
Lemma details_loop_stuck n start r t :
  start = t ++ r -> length r <= n -> details_loop n start r t = None ->
  forall m, details_loop m start r t = None.
Proof.
  revert r t; induction n as [|n IH]; intros r t E L H m.
  - assert (r = []) as -> by (destruct r; [auto | cbn in L; lia]). rewrite app_nil_r in E. subst t.
    cbn [details_loop] in H. destruct (opens start =? closes start) eqn:Q; [|easy].
    induction m as [|m IH]; cbn [details_loop]; rewrite Q; [easy|].
    cbn [consume_until_tail_is consume_until_tail_go fst snd]. pose proof (substring_from_app start []) as SA.
    rewrite app_nil_r in SA. rewrite SA. exact IH.
  - cbn [details_loop] in H. destruct (opens t =? closes t) eqn:Q; [|easy].
    destruct m as [|m]; cbn [details_loop]; rewrite Q; [easy|].
    destruct (consume_until_tail_is _ r) as [u r1] eqn:K.
    apply consume_close in K as (ER & U & _).
    assert (ES : start = (t ++ u) ++ r1) by now rewrite E, ER, <- app_assoc.
    assert (SF : substring_from start r1 = t ++ u) by (rewrite ES; apply substring_from_app).
    rewrite SF in *. apply IH; auto. destruct r as [|c r].
    + symmetry in ER. apply app_eq_nil in ER as [_ ->]. cbn. lia.
    + assert (u <> []) by now apply U. rewrite ER, app_length in L. destruct u; [easy|]. cbn in L. lia.
Qed.
Lemma details_loop_stable n m start r t :
  start = t ++ r -> length r <= n -> n <= m -> details_loop n start r t = details_loop m start r t.
Proof.
  intros E L M. destruct (details_loop n start r t) as [x|] eqn:Q.
  - symmetry. exact (details_loop_mono n m M n m _ _ _ _ M Q).
  - symmetry. exact (details_loop_stuck n _ _ _ E L Q m).
Qed.

Lemma eq_of_nh {A} (m m' : res A) : le_res m m' -> m <> Hang -> m = m'.
Proof. intros [->|E] H; [easy | exact E]. Qed.
Lemma bind_eq {A B} (m m' : res A) (k k' : A -> res B) :
  m = m' -> (forall a, m = Ret a -> k a = k' a) -> bind m k = bind m' k'.
Proof. intros <- H. destruct m; cbn; auto. Qed.

(** ** One level of the lexer *)
Section Level.
Variables (LEX LEX' : str -> list char -> res (list token)).
Variables (REN REN' : str -> list char -> res str).
Variables (L L' k : nat).
Hypothesis HLEX : forall s ig, le_res (LEX s ig) (LEX' s ig).
Hypothesis HREN : forall s ig, le_res (REN s ig) (REN' s ig).
Hypothesis HL : k <= L <= L'.
Hypothesis LEX_eq : forall s ig, length s <= k -> LEX s ig = LEX' s ig.
Hypothesis LEX_nh : forall s ig, flat s /\ length s <= k -> LEX s ig <> Hang.
Hypothesis REN_nh : forall s ig, flat s /\ length s <= k -> REN s ig <> Hang.

Lemma parse_details_eq r : length r <= k -> parse_details LEX L r = parse_details LEX' L' r.
Proof.
  intros LR. unfold parse_details, consume_while.
  set (f := fun c : char => negb (ceq c c_nl) && negb (ceq c c_cr)).
  set (r2 := skip_if_eq c_cr (drop_while f r)).
  assert (L2 : length r2 <= k).
  { assert (S2 : suffix r2 r) by (subst r2; suf). apply suffix_length in S2. lia. }
  destruct (_ || _); [easy|]. destruct (strip_prefix _ _) as [s1|]; [|easy].
  destruct (consume_until_tail_is (lit "</details>") r2) as [t0 r3] eqn:K.
  pose proof (consume_until_tail_app _ _ _ _ K) as E.
  assert (BODY : forall text r4 summary, length text <= k ->
    bind (LEX (or_empty (strip_suffix (lit "</details>") text)) [])
         (fun toks => Ret (LOk (Detail summary toks) r4)) =
    bind (LEX' (or_empty (strip_suffix (lit "</details>") text)) [])
         (fun toks => Ret (LOk (Detail summary toks) r4))).
  { intros text r4 summary LT. rewrite LEX_eq; [easy|].
    pose proof (infix_length _ _ (infix_or_empty_suffix (lit "</details>") text)). lia. }
  assert (L0 : length t0 <= k) by (rewrite E, app_length in L2; lia).
  destruct (contains _ t0); [|now apply BODY].
  rewrite <- (details_loop_stable L L' r2 r3 t0); [|exact E|rewrite E, app_length in L2; lia|lia].
  destruct (details_loop L r2 r3 t0) as [[text r4]|] eqn:Q; [|easy].
  apply BODY. apply details_loop_suffix in Q as [_ [->|I1]]; [auto|].
  apply infix_length in I1. lia.
Qed.
Lemma lex_side_carrot_eq r : length r <= S k -> lex_side_carrot LEX L r = lex_side_carrot LEX' L' r.
Proof.
  intros LR. unfold lex_side_carrot, consume_while.
  destruct (next_if_eq _ r) as [r1|] eqn:E1; [|easy]. apply next_if_eq_some in E1.
  destruct (next_if_eq c_gt _) as [r3|] eqn:E3; [|easy]. apply next_if_eq_some in E3.
  destruct (str_eqb _ _); [|easy].
  destruct (next_if_eq _ _) as [r5|] eqn:E5; [|easy]. apply next_if_eq_some in E5.
  apply parse_details_eq.
  assert (S5 : suffix r5 r1).
  { apply suffix_trans with (skip_if_eq c_cr r3); [rewrite E5; now exists [c_nl]|].
    apply suffix_trans with r3; [apply skip_if_eq_suffix|].
    eapply suffix_trans; [|apply (suffix_drop_while (fun c => negb (ceq c c_gt)))].
    rewrite E3. now exists [c_gt]. }
  apply suffix_length in S5. rewrite E1 in LR. cbn in LR. lia.
Qed.

Let OK (s : str) : Prop := length s <= S k.
Let SOK (s : str) : Prop := flat s /\ length s <= k.
Lemma OK_suffix a s : suffix a s -> OK s -> OK a.
Proof. intros H K. apply suffix_length in H. unfold OK in *. lia. Qed.
Lemma SOK_sub r r' a : OK r -> ssuffix r' r -> infix a r' -> flat a -> SOK a.
Proof.
  intros K S I F. split; [exact F|]. apply ssuffix_length in S. apply infix_length in I.
  unfold OK in K. lia.
Qed.
Lemma dispatch_eq ig last c r : length (c :: r) <= S k ->
  dispatch LEX REN L ig last c (c :: r) = dispatch LEX' REN' L' ig last c (c :: r).
Proof.
  intros H. destruct (ceq c c_lt) eqn:EL.
  { apply ceq_eq in EL as ->. change (lex_side_carrot LEX L (c_lt :: r) = lex_side_carrot LEX' L' (c_lt :: r)).
    now apply lex_side_carrot_eq. }
  apply eq_of_nh; [now apply dispatch_mono|]. unfold dispatch. rewrite EL.
  destruct (ceq c c_hash && _) eqn:E1.
  { apply andb_true_iff in E1 as [E1 _]. apply ceq_eq in E1 as ->.
    now apply (lex_heading_nh REN OK SOK SOK_sub REN_nh). }
  destruct (ceq c c_nl); [easy|].
  destruct (ceq c c_sp || _) eqn:E2.
  { unfold lex_tabs_spaces. destruct (lex_tabs_spaces_go _ _ _) eqn:E; [easy|].
    exfalso. revert E. apply tabs_spaces_go_nh; [lia|]. exists c, r. split; [auto|].
    unfold is_sp_tab. now rewrite orb_comm. }
  destruct (is_digit c); [apply lex_numbers_nh|].
  destruct (ceq c c_star || _); [easy|].
  destruct (ceq c c_minus || _) eqn:E3; [now apply (lex_plus_minus_nh LEX OK SOK SOK_sub LEX_nh)|].
  destruct (ceq c c_gt); [easy|].
  destruct (ceq c c_tilde); [easy|].
  destruct (ceq c c_tick); [easy|].
  destruct (ceq c c_lbrk); [apply lex_links_nh|].
  destruct (ceq c c_bang); [apply lex_images_nh|].
  destruct (ceq c c_pipe); [now apply (lex_pipes_nh LEX OK SOK SOK_sub LEX_nh)|].
  destruct (ceq c c_bslash); easy.
Qed.
Lemma lex_loop_eq n ig last r : length r <= S k ->
  lex_loop LEX REN L n ig last r = lex_loop LEX' REN' L' n ig last r.
Proof.
  revert last r; induction n as [|n IH]; intros last r H; [easy|]. cbn [lex_loop].
  apply bind_eq.
  - destruct r as [|c r]; [easy|]. cbn [next_token]. now rewrite dispatch_eq.
  - intros [[t r']|] E; [|easy]. apply next_token_progress in E.
    rewrite IH; [easy|]. apply ssuffix_length in E. lia.
Qed.
End Level.

(** ** All levels *)
Definition LS (k : nat) : Prop := forall f s ig, FD k <= f -> length s <= k ->
  (forall g, f <= g -> lex f s ig = lex g s ig) /\
  (forall ts, lex f s ig = Ret ts -> Forall (tokc k) ts).
Definition PS (k : nat) : Prop := forall f ts, FD k <= f -> Forall (tokc k) ts ->
  forall g, f <= g -> parse f ts = parse g ts.

Lemma LS_step k : LS k -> LS (S k).
Proof.
  intros HL f s ig Hf L. destruct (FD_step _ _ Hf) as (f' & -> & Hf' & Kf & Ff).
  destruct (flat_LP k) as [FL FP].
  assert (G1 : forall s, flat s /\ length s <= k -> GF k s) by (intros s0 K; now right).
  assert (LX : forall s ig, flat s /\ length s <= k -> lex f' s ig <> Hang).
  { intros s' ig' H'. now apply (FL f' s' ig' Ff (G1 _ H')). }
  assert (REN : forall s ig, flat s /\ length s <= k -> bind (lex f' s ig) (parse f') <> Hang).
  { intros s' ig' H'. destruct (FL f' s' ig' Ff (G1 _ H')) as [A B].
    apply bind_nh; [auto|]. intros ts E. apply FP; auto. }
  assert (LFL : forall s ig ts, flat s -> length s <= k -> lex f' s ig = Ret ts -> Forall (tokf k) ts).
  { intros s' ig' ts' A B. apply (FL f' s' ig' Ff). now apply G1. }
  split; cbn [lex].
  - intros g Hg. destruct g as [|g']; [lia|]. assert (Hg' : f' <= g') by lia. cbn [lex].
    destruct (lex_parse_mono f' g' Hg') as [ML MP].
    apply (lex_loop_eq _ _ _ _ f' g' k); auto.
    + intros. apply le_bind; [apply ML | exact MP].
    + intros s' ig' B. now apply (HL f' s' ig' Hf' B).
  - intros ts. cbn [tokc].
    apply (lex_loop_tk (lex f') _ f' k (tokc k)) with (DOC := fun _ => True); auto.
    intros R x r l _ B E X. unfold parse_details, consume_while.
    destruct (_ || _); [injection 1 as <-; exact I|]. destruct (strip_prefix _ _) as [s1|]; [|easy].
    set (h := fun c : char => negb (ceq c c_nl) && negb (ceq c c_cr)).
    set (r2 := skip_if_eq c_cr (drop_while h r)).
    assert (L2 : length r2 <= k).
    { assert (S2 : suffix r2 r) by (subst r2; suf). apply suffix_length in S2.
      rewrite E, !app_length in B. cbn in B. lia. }
    destruct (consume_until_tail_is (lit "</details>") r2) as [t0 r3] eqn:K.
    pose proof (consume_until_tail_app _ _ _ _ K) as ET.
    assert (BODY : forall text r4 summary, length text <= k ->
      bind (lex f' (or_empty (strip_suffix (lit "</details>") text)) [])
           (fun toks => Ret (LOk (Detail summary toks) r4)) = Ret l -> lr_tk k (tokc k) l).
    { intros text r4 summary LT.
      pose proof (infix_length _ _ (infix_or_empty_suffix (lit "</details>") text)).
      destruct (lex f' _ []) as [toks| |] eqn:Q; cbn [bind]; try easy. injection 1 as <-.
      cbn [lr_tk tokc1]. eapply (HL f'); [exact Hf' | | exact Q]. lia. }
    assert (L0 : length t0 <= k) by (rewrite ET, app_length in L2; lia).
    destruct (contains _ t0); [|now apply BODY].
    destruct (details_loop f' r2 r3 t0) as [[text r4]|] eqn:Q; [|easy].
    apply BODY. apply details_loop_suffix in Q as [_ [->|I1]]; [auto|].
    apply infix_length in I1. lia.
Qed.
Lemma PS_step k : PS k -> PS (S k).
Proof.
  intros HP f ts Hf FT g Hg. destruct (FD_step _ _ Hf) as (f' & -> & Hf' & Kf & Ff).
  destruct g as [|g']; [lia|]. assert (Hg' : f' <= g') by lia.
  destruct (flat_LP k) as [FL FP].
  destruct (lex_parse_mono f' g' Hg') as [ML MP].
  assert (MR : forall s, le_res (bind (lex f' s []) (parse f')) (bind (lex g' s []) (parse g'))).
  { intros s. apply le_bind; [apply ML | exact MP]. }
  assert (REN : forall s, GF k s -> bind (lex f' s []) (parse f') <> Hang).
  { intros s' H'. destruct (FL f' s' [] Ff H') as [A B].
    apply bind_nh; [auto|]. intros ts' E. apply FP; auto. }
  cbn [parse]. unfold parse_body. apply bind_eq; [|easy]. generalize pinit.
  induction FT as [|t ts H FT IH]; intros p; cbn [parse_loop]; [easy|].
  apply bind_eq; [|intros; apply IH]. cbn [tokc] in H. clear IH. set (p1 := pre t p). clearbody p1.
  destruct t; try (lazymatch goal with |- body _ _ (Detail _ _) _ = _ => fail | _ => idtac end;
    apply eq_of_nh; [now apply body_mono|]); cbn [body tokc1] in *; try easy.
  - apply bind_nh; [|easy]. apply mapM_nh. intros x Ix.
    rewrite Forall_forall in H. specialize (H _ Ix). destruct x as [tx| | | | | | | | | | | | | | | | | | | | |]; cbn [list_child]; try easy.
    cbn [child_ok] in H.
    destruct (starts_with _ tx); (apply bind_nh; [|easy]); apply REN;
      (eapply G_infix; [| |exact H]).
    + intros a b. apply flat_infix.
    + eapply infix_trans; [apply infix_trim_start_by | apply infix_skipn].
    + intros a b. apply flat_infix.
    + apply infix_trim_start_by.
  - match goal with |- context [is_empty ?x] => destruct (is_empty x); [easy|] end. apply bind_nh; [|easy].
    match goal with |- bind (lex f' (sanitize (trim_start_by _ ?x)) []) _ <> _ =>
      change (render f' (sanitize (trim_start_by (ceq c_sp) x)) <> Hang) end.
    apply quote_nh. unfold FD, F, QF in *. lia.
  - now rewrite (HP f' toks Hf' H g' Hg').
  - destruct rows as [|row rows]; [easy|]. cbn [row0_len]. destruct (negb _); [easy|].
    apply bind_nh; [|easy]. unfold table_html. apply bind_nh; [|easy].
    apply mapM_nh. intros rw Irw. rewrite Forall_forall in H. specialize (H _ Irw).
    unfold row_html. apply bind_nh; [|easy]. apply mapM_nh. intros e Ie.
    rewrite Forall_forall in H. specialize (H _ Ie). unfold cell_html.
    apply bind_nh; [|easy]. apply mapM_nh. intros x Ix.
    destruct x; cbn [cell_token]; try easy; now apply FP.
Qed.
Lemma LPS k : LS k /\ PS k.
Proof.
  induction k as [|k [IL IP]]; [|split; [now apply LS_step | now apply PS_step]]. split.
  - intros [|f] s ig Hf L; [unfold FD, F in Hf; lia|]. destruct s; [|cbn in L; lia]. split.
    + intros [|g] Hg; [lia|]. reflexivity.
    + cbn [lex lex_loop length next_token bind]. injection 1 as <-. constructor.
  - intros [|f] ts Hf FT g Hg; [unfold FD, F in Hf; lia|]. destruct g as [|g]; [lia|].
    destruct FT as [|t ts []]. reflexivity.
Qed.
Lemma render_stable f g s : 310 + 10 * length s <= f -> f <= g -> render f s = render g s.
Proof.
  intros Hf Hg. destruct (LPS (length s)) as [HL HP].
  assert (FF : FD (length s) <= f) by (unfold FD, F, QF; lia).
  destruct (HL f s [] FF (le_n _)) as [A B]. unfold render, render_ignore.
  apply bind_eq; [now apply A|]. intros ts E. apply HP; auto.
Qed.
Theorem hang_forever s : render (310 + 10 * length s) s = Hang -> runs_forever s.
Proof.
  intros H g. destruct (Nat.le_ge_cases g (310 + 10 * length s)) as [C|C].
  - destruct (render_mono _ _ s C) as [E|E]; congruence.
  - now rewrite <- (render_stable _ g s (le_n _) C).
Qed.
