(** * MarkdownTables: tables. *)
From Coq Require Import Ascii String.
From Verif Require Import Strings StringsFacts Token Iter Lexer Parser LexerFacts LexMono SanitizeFacts
  LinkFacts NoPanic DetailsFacts RawHtml Exec Markdown MarkdownFacts MarkdownBlocks MarkdownLists.
Open Scope list_scope.

Definition al (a : align) : alignment := match a with AlLeft => ALeft | AlRight => ARight | AlCenter => ACenter end.
Lemma delim_alignment x : cell_alignment x = al (delim x).
Proof. unfold cell_alignment, delim. now destruct (starts_with _ x), (ends_with _ x). Qed.
Lemma al_name a : fmt_alignment (al a) = align_name a.
Proof. now destruct a. Qed.

(** ** Lines *)
Definition line_of (cells : list str) : str := concat (map (fun x => x ++ [c_pipe]) cells).
Lemma bar_free_no t : bar_free t -> ~ In c_pipe t. Proof. now intros (_ & ? & _). Qed.
Lemma line_of_no_nl cells : Forall bar_free cells -> no_nl (line_of cells).
Proof.
  intros F I. unfold line_of in I. apply in_concat in I as (u & Iu & I). apply in_map_iff in Iu as (x & <- & Ix).
  rewrite Forall_forall in F. apply in_app_iff in I as [I|[I|[]]]; [|discriminate I].
  apply F in Ix as (_ & _ & N). auto.
Qed.
Lemma split_one_first c a b : forall acc, ~ In c a -> split_go [c] 0 acc (a ++ c :: b) = (rev acc ++ a) :: split [c] b.
Proof.
  induction a as [|x a IH]; intros acc N.
  - cbn [app split_go starts_with]. rewrite ceq_refl. cbn [andb length Nat.sub]. now rewrite app_nil_r.
  - cbn [app split_go starts_with]. assert (E : ceq c x = false). { apply ceq_neq. intros ->. apply N. now left. }
    rewrite E. cbn [andb]. rewrite IH by (intros I; apply N; now right). cbn [rev]. now rewrite <- app_assoc.
Qed.
Lemma split_line_of cells : Forall bar_free cells -> split [c_pipe] (line_of cells) = cells ++ [[]].
Proof.
  induction 1 as [|x cells B F IH]; [reflexivity|]. unfold line_of. cbn [map concat]. rewrite <- app_assoc. cbn [app].
  unfold split. rewrite split_one_first by (now apply bar_free_no). cbn [rev app]. now f_equal.
Qed.
Lemma cells_line cs : Forall bar_free cs -> cells (line_of cs) = map trim cs.
Proof.
  intros F. unfold cells. rewrite split_line_of by exact F. rewrite filter_app. cbn [filter is_empty negb].
  rewrite app_nil_r. f_equal. induction F as [|x l (NE & _) F IH]; [auto|]. cbn [filter].
  destruct x; [easy|]. cbn [is_empty negb]. now f_equal.
Qed.
Lemma count_line cs : Forall bar_free cs -> count_matches [c_pipe] (line_of cs) = length cs.
Proof.
  induction 1 as [|x cs B F IH]; [reflexivity|]. unfold line_of. cbn [map concat length]. rewrite <- app_assoc.
  rewrite count_miss by (now apply bar_free_no). rewrite (count_hit c_pipe []). now f_equal.
Qed.
Lemma table_lines_rows rows r : Forall (Forall bar_free) rows -> starts_in [c_pipe] r = false -> forall n, length rows < n ->
  table_lines n (concat (map (fun row => row_src row ++ [c_nl]) rows) ++ r) = Some (map line_of rows, r).
Proof.
  intros F S0. induction F as [|row rows B F IH]; intros n L; (destruct n as [|n]; [cbn in L; lia|]).
  - cbn [map concat app table_lines]. now rewrite (starts_in_next c_pipe _ r S0) by (now left).
  - cbn [map concat table_lines]. unfold row_src at 1. fold (line_of row). rewrite <- !app_assoc.
    change (next_if_eq c_pipe ([c_pipe] ++ ?z)) with (Some z).
    cbn iota. unfold consume_while.
    match goal with |- context [take_while not_nl (line_of row ++ ?z)] =>
      destruct (text_take not_nl (line_of row) z) as [-> ->] end.
    { apply not_nl_forall. now apply line_of_no_nl. }
    { right. exists c_nl. eexists. split; reflexivity. }
    cbn [app next tl]. rewrite IH by (cbn in L; lia). reflexivity.
Qed.

(** ** Cells *)
Lemma sanitize_one c : sanitize [c] = esc c.
Proof. rewrite <- escaped_sanitize. cbn. apply app_nil_r. Qed.
Definition usable (ts : list token) : list token := filter is_usable_in_table ts.
Lemma cell_tokens w s h : cell_text w s h -> forall last, exists ts last',
  steps [] last s ts last' [] /\ (w <> None -> usable ts = ts) /\
  forall P elem, (forall w', w = Some w' -> P elem = Ret w') ->
    exists parts, mapM (cell_token P elem) (usable ts) = Ret parts /\ concat parts = h.
Proof.
  assert (ONE : forall s1 s2 h1 h2 t, lexed false s1 t s2 -> is_usable_in_table t = true ->
    (forall P elem, (forall w', w = Some w' -> P elem = Ret w') -> cell_token P elem t = Ret h1) ->
    (forall last, exists ts last', steps [] last s2 ts last' [] /\ (w <> None -> usable ts = ts) /\
      forall P elem, (forall w', w = Some w' -> P elem = Ret w') ->
        exists parts, mapM (cell_token P elem) (usable ts) = Ret parts /\ concat parts = h2) ->
    forall last, exists ts last', steps [] last (s1 ++ s2) ts last' [] /\ (w <> None -> usable ts = ts) /\
      forall P elem, (forall w', w = Some w' -> P elem = Ret w') ->
        exists parts, mapM (cell_token P elem) (usable ts) = Ret parts /\ concat parts = h1 ++ h2).
  { intros s1 s2 h1 h2 t L U C IH last. destruct (IH (Some t)) as (ts & last' & S0 & UT & M).
    exists (t :: ts), last'. split; [econstructor; [apply (L last) | exact S0]|].
    unfold usable. cbn [filter]. rewrite U. fold (usable ts). split; [intros NW; now rewrite UT|].
    intros P elem HW. destruct (M P elem HW) as (parts & M1 & E). exists (h1 :: parts).
    split; [|cbn; now rewrite E]. cbn [mapM]. rewrite C by exact HW. cbn [bind]. now rewrite M1. }
  assert (DROP : forall s1 s2 h2 t, w = None -> lexed false s1 t s2 -> is_usable_in_table t = false ->
    (forall last, exists ts last', steps [] last s2 ts last' [] /\ (w <> None -> usable ts = ts) /\
      forall P elem, (forall w', w = Some w' -> P elem = Ret w') ->
        exists parts, mapM (cell_token P elem) (usable ts) = Ret parts /\ concat parts = h2) ->
    forall last, exists ts last', steps [] last (s1 ++ s2) ts last' [] /\ (w <> None -> usable ts = ts) /\
      forall P elem, (forall w', w = Some w' -> P elem = Ret w') ->
        exists parts, mapM (cell_token P elem) (usable ts) = Ret parts /\ concat parts = h2).
  { intros s1 s2 h2 t NW L U IH last. destruct (IH (Some t)) as (ts & last' & S0 & _ & M).
    exists (t :: ts), last'. split; [econstructor; [apply (L last) | exact S0]|].
    split; [congruence|].
    intros P elem HW. unfold usable. cbn [filter]. rewrite U. now apply M. }
  induction 1 as [|c s h Pc H IH|n s h Hn S0 H IH|d s h D S0 H IH|d s h D S0 H IH|s h S0 H IH|c s h NH H IH|t s h NW NE NT S0 H IH
    |d t d' s h I1 I2 NE N S0 H IH|ds t ds' s h L1 L2 I NE N S0 S1 H IH|ds t ds' s h L1 L2 I NE N S0 S1 H IH
    |w' c t s h HW CS H IH|w' t u href s h HW N1 N2 HU H IH|w' u href t s h HW D N H IH].
  - intros last. exists [], last. split; [constructor|]. split; [reflexivity|].
    intros P elem _. exists []. split; reflexivity.
  - apply (ONE [c] s (esc c) h (Plaintext [c])); auto.
    + apply lexed_ok, disp_plain. exact Pc.
    + intros P elem _. cbn [cell_token]. now rewrite sanitize_one.
  - apply (ONE (crep n c_sp) s (crep n c_sp) h (Plaintext (crep n c_sp))); auto.
    + now apply lex_blanks.
    + intros P elem _. cbn [cell_token]. rewrite <- escaped_sanitize. now rewrite crep_escaped.
  - apply (ONE [d] s [d] h (Plaintext [d])); auto.
    + now apply lex_digit.
    + intros P elem _. cbn [cell_token]. rewrite sanitize_one. apply digit_in in D.
      repeat (destruct D as [<-|D]; [reflexivity|]). destruct D.
  - apply (ONE [d; c_dot] s [d; c_dot] h (Plaintext [d; c_dot])); auto.
    + now apply lex_digit_dot.
    + intros P elem _. cbn [cell_token]. apply digit_in in D.
      repeat (destruct D as [<-|D]; [reflexivity|]). destruct D.
  - apply (ONE [c_bang] s [c_bang] h (Plaintext [c_bang])); auto. now apply lex_bang.
  - apply (ONE [c_bslash; c] s (esc c) h (Plaintext [c])); auto.
    + now apply lex_escape.
    + intros P elem _. cbn [cell_token]. now rewrite sanitize_one.
  - apply (DROP _ s h (Strikethrough t)); auto. now apply lex_strike.
  - apply (ONE (d :: t ++ [d']) s (em_tag t) h (Italic t)); auto.
    + now apply lex_em.
    + intros P elem _. unfold em_tag. now rewrite escaped_sanitize.
  - apply (ONE (ds ++ t ++ ds') s (strong_tag t) h (Bold t)); auto.
    + pose proof (lex_strongs false s ds t ds' (or_introl L1) I NE N S0 S1) as G. rewrite L1, L2 in G. apply G.
      intros ->. discriminate L2.
    + intros P elem _. unfold strong_tag. now rewrite escaped_sanitize.
  - apply (ONE (ds ++ t ++ ds') s (both_tag t) h (BoldItalic t)); auto.
    + pose proof (lex_strongs false s ds t ds' (or_intror L1) I NE N S0 S1) as G. rewrite L1, L2 in G. apply G.
      intros ->. discriminate L2.
    + intros P elem _. unfold both_tag. now rewrite escaped_sanitize.
  - apply (ONE c s w' h (Code t)); [now apply lex_code | reflexivity | intros P elem G; exact (G w' HW) | exact IH].
  - destruct (lex_link_token false s t u href N1 N2 HU) as (v & _ & L).
    apply (ONE _ s w' h (Link v (Some t) None)); [exact L | reflexivity | intros P elem G; exact (G w' HW) | exact IH].
  - destruct (lex_auto_token false s u href t D N) as (v & _ & L).
    apply (ONE _ s w' h (Link v None None)); [exact L | reflexivity | intros P elem G; exact (G w' HW) | exact IH].
Qed.
(** A cell of the tokens [ts] shows [h]. *)
Definition displays_as (ts : list token) (h : str) : Prop :=
  exists F, forall f, F <= f -> exists parts, mapM (cell_token (parse f) ts) ts = Ret parts /\ concat parts = h.
Lemma cell_lexes s h : cell_shows s h -> exists ts, lexes [] s ts /\ displays_as (usable ts) h.
Proof.
  intros [H|(w & [F R] & H)].
  - destruct (cell_tokens _ s h H None) as (ts & last' & S0 & _ & M).
    exists ts. split; [eapply steps_lexes, S0|]. exists 0. intros f _. apply M. discriminate.
  - destruct (cell_tokens _ s h H None) as (ts & last' & S0 & U & M).
    specialize (U ltac:(discriminate)). setoid_rewrite U in M.
    exists ts. rewrite U. apply steps_lexes in S0. split; [exact S0|]. exists F. intros f L. apply M.
    intros w' E. apply (f_equal (fun o => match o with Some x => x | None => w end)) in E. cbn in E. subst w'.
    unfold render, render_ignore in R. destruct (lex F s []) as [ts'| |] eqn:E; cbn [bind] in R; try easy.
    destruct S0 as [F' S0].
    assert (ts' = ts) as ->.
    { pose proof (le_res_ret _ _ _ (lex_mono F (F + F') s [] ltac:(lia)) E) as E1.
      pose proof (le_res_ret _ _ _ (lex_mono F' (F + F') s [] ltac:(lia)) S0) as E2. congruence. }
    exact (le_res_ret _ _ _ (parse_mono F f ts L) R).
Qed.
(** One row, then all rows, lexed with enough fuel. *)
Lemma row_lexes row hs : Forall bar_free row -> Forall2 (fun x y => cell_shows (trim x) y) row hs ->
  exists tss F, Forall2 displays_as tss hs /\ forall f, F <= f -> lex_row (lex f) (line_of row) = Ret tss.
Proof.
  intros B H. unfold lex_row. rewrite cells_line by exact B. clear B.
  induction H as [|x y row hs C H (tss & F & D & L)].
  - exists [], 0. split; [constructor|]. reflexivity.
  - destruct (cell_lexes _ _ C) as (ts & LX & DA). apply lexes_at in LX as [F1 LX].
    exists (usable ts :: tss), (F + F1). split; [constructor; [exact DA | exact D]|].
    intros f Lf. cbn [map mapM]. rewrite LX by lia. cbn [bind]. rewrite L by lia. reflexivity.
Qed.
Lemma rows_lex als rows hrows : Forall (Forall bar_free) rows ->
  Forall2 (Forall2 (fun x y => cell_shows (trim x) y)) rows hrows ->
  exists tsss F, Forall2 (Forall2 displays_as) tsss hrows /\ forall f, F <= f ->
    mapM (fun l => bind (lex_row (lex f) l) (fun cs => Ret (combine als cs))) (map line_of rows)
    = Ret (map (fun tss => combine (als : list alignment) tss) tsss).
Proof.
  intros B H. induction H as [|row hs rows hrows C H IH].
  - exists [], 0. split; [constructor|]. reflexivity.
  - apply Forall_cons_iff in B as [B1 B]. destruct (IH B) as (tsss & F & D & L).
    destruct (row_lexes row hs B1 C) as (tss & F1 & D1 & L1).
    exists (tss :: tsss), (F + F1). split; [now constructor|].
    intros f Lf. cbn [map mapM]. rewrite L1 by lia. cbn [bind]. rewrite L by lia. reflexivity.
Qed.

(** ** The token *)
Lemma td_tags a h : td_html (al a) h = td_tag a h.
Proof. unfold td_html, td_tag. now rewrite al_name. Qed.
Lemma row_out als tss hs : Forall2 displays_as tss hs ->
  exists F, forall f, F <= f -> row_html (parse f) (combine (map al als) tss) = Ret (tr_tag als hs).
Proof.
  intros H. unfold row_html, tr_tag.
  assert (G : forall als0, exists F, forall f, F <= f -> mapM (cell_html (parse f)) (combine (map al als0) tss)
    = Ret (map (fun p => td_tag (fst p) (snd p)) (combine als0 hs))).
  { clear als. induction H as [|ts h tss hs (F1 & M) H IH]; intros als.
    - exists 0. now destruct als.
    - destruct als as [|a als]; [now exists 0|]. destruct (IH als) as [F IH'].
      exists (F + F1). intros f L. destruct (M f ltac:(lia)) as (parts & M1 & E).
      cbn [map combine mapM]. unfold cell_html at 1. cbn [fst snd].
      rewrite M1. cbn [bind]. rewrite IH' by lia. cbn [bind]. rewrite td_tags, E. reflexivity. }
  destruct (G als) as [F G']. exists F. intros f L. rewrite G' by exact L. reflexivity.
Qed.
Lemma rows_out als tsss hrows : Forall2 (Forall2 displays_as) tsss hrows ->
  exists F, forall f, F <= f ->
    mapM (row_html (parse f)) (map (fun tss => combine (map al als) tss) tsss) = Ret (map (tr_tag als) hrows).
Proof.
  induction 1 as [|tss hs tsss hrows H1 H (F & IH)]; [now exists 0|].
  destruct (row_out als tss hs H1) as [F1 R]. exists (F + F1). intros f L.
  cbn [map mapM]. rewrite R by lia. cbn [bind]. rewrite IH by lia. reflexivity.
Qed.
Lemma th_tags als heads : flat_map th_html (combine (map al als) (map trim heads))
  = concat (map (fun p => th_tag (fst p) (snd p)) (combine als heads)).
Proof.
  revert heads; induction als as [|a als IH]; intros [|x heads]; try reflexivity.
  cbn [map combine flat_map concat]. rewrite IH. f_equal. unfold th_html, th_tag. cbn [fst snd].
  now rewrite al_name, escaped_sanitize.
Qed.
Lemma combine_length_eq {A B} (a : list A) (b : list B) n : length a = n -> length b = n -> length (combine a b) = n.
Proof. intros H1 H2. rewrite combine_length. lia. Qed.
Lemma eff_table als heads tsss hrows b c q : length als = length heads -> tsss <> [] ->
  Forall (fun tss => length tss = length heads) tsss ->
  Forall2 (Forall2 displays_as) tsss hrows ->
  effect (Table (combine (map al als) (map trim heads)) (map (fun tss => combine (map al als) tss) tsss))
    b c q LNone b c q LNone (table_tag als heads hrows) [].
Proof.
  intros LA NE LR D. destruct (rows_out als tsss hrows D) as [F RO]. eff. eexists. split.
  - exists F. cbn [pre body is_list_or_newline is_task_or_newline is_inline is_par_closer is_quote_or_newline andb orb
      in_paragraph in_code quote_level in_ordered_list in_unordered_list in_task_list].
    destruct tsss as [|tss tsss]; [easy|]. cbn [map row0_len].
    apply Forall_cons_iff in LR as [L1 LR].
    rewrite (combine_length_eq _ _ (length heads)) by (rewrite ?map_length; auto).
    rewrite (combine_length_eq _ _ (length heads)) by (rewrite ?map_length; auto).
    rewrite Nat.eqb_refl. cbn [negb]. unfold table_html.
    change (combine (map al als) tss :: map (fun tss0 => combine (map al als) tss0) tsss)
      with (map (fun tss0 => combine (map al als) tss0) (tss :: tsss)).
    rewrite (RO F (le_n F)). cbn [bind]. rewrite th_tags. reflexivity.
  - unfold table_tag. done_eff.
Qed.

Lemma forall2_length {A B} (R : A -> B -> Prop) a b : Forall2 R a b -> length a = length b.
Proof. induction 1; cbn; auto. Qed.
Lemma lex_table hd r heads delims rows hrows : heads <> [] -> rows <> [] ->
    length delims = length heads ->
    Forall (fun row => length row = length heads) rows ->
    Forall bar_free heads -> Forall bar_free delims -> Forall (Forall bar_free) rows ->
    Forall2 (Forall2 (fun x y => cell_shows (trim x) y)) rows hrows ->
    starts_in [c_pipe] r = false ->
  exists t, lexed hd (concat (map (fun row => row_src row ++ [c_nl]) (heads :: delims :: rows))) t r /\
    forall b c q, effect t b c q LNone b c q LNone (table_tag (map (fun x => delim (trim x)) delims) heads hrows) [].
Proof.
  intros NH NR LD LR BH BD BR C S0.
  set (als := map (fun x => delim (trim x)) delims).
  destruct (rows_lex (map al als) rows hrows BR C) as (tsss & F & D & L).
  exists (Table (combine (map al als) (map trim heads)) (map (fun tss => combine (map al als) tss) tsss)). split.
  - intros last. exists F. set (s := concat _ ++ r).
    assert (HS : exists s', s = c_pipe :: s'). { eexists. unfold s. reflexivity. }
    destruct HS as [s' HS]. rewrite HS at 1. cbn [next_token]. rewrite <- HS.
    match goal with |- context [dispatch ?L ?R ?N ?i ?l ?c ?s] =>
      replace (dispatch L R N i l c s) with (lex_pipes L s) by (destruct hd; reflexivity) end.
    unfold lex_pipes. unfold s.
    rewrite table_lines_rows; auto.
    2:{ rewrite app_length. apply Nat.lt_succ_r.
        transitivity (length (concat (map (fun row => row_src row ++ [c_nl]) (heads :: delims :: rows)))); [|lia].
        generalize (heads :: delims :: rows). clear. intros l. induction l as [|x l IH]; [cbn; lia|].
        cbn [map concat length]. rewrite !app_length. cbn [length]. lia. }
    cbn [map]. assert (L3 : (length (line_of heads :: line_of delims :: map line_of rows) <? 3) = false).
    { apply Nat.ltb_ge. cbn [length]. rewrite map_length. destruct rows; [easy|]. cbn [length]. lia. }
    rewrite L3.
    assert (CM : forallb (fun l => count_matches [c_pipe] l =? count_matches [c_pipe] (line_of heads))
                   (line_of heads :: line_of delims :: map line_of rows) = true).
    { apply forallb_forall. intros x [<-|[<-|I]].
      - apply Nat.eqb_refl.
      - rewrite !count_line by auto. now rewrite LD, Nat.eqb_refl.
      - apply in_map_iff in I as (row & <- & I). rewrite Forall_forall in LR, BR.
        rewrite !count_line by auto. now rewrite (LR row I), Nat.eqb_refl. }
    rewrite CM. cbn [negb]. rewrite !cells_line by auto.
    assert (EA : map cell_alignment (map trim delims) = map al als).
    { unfold als. rewrite !map_map. apply map_ext. intros x. apply delim_alignment. }
    rewrite EA, (L F (le_n F)). reflexivity.
  - intros b c q. apply eff_table; auto.
    + unfold als. rewrite map_length. exact LD.
    + intros ->. apply forall2_length in D. apply forall2_length in C. cbn in D. rewrite <- D in C. now destruct rows.
    + apply Forall_forall. intros tss I.
      assert (X : forall t1 h1 r1, Forall2 (Forall2 displays_as) t1 h1 ->
        Forall2 (Forall2 (fun x y => cell_shows (trim x) y)) r1 h1 ->
        Forall (fun row : list str => length row = length heads) r1 -> Forall (fun tss : list (list token) => length tss = length heads) t1).
      { clear. intros t1 h1 r1 H. revert r1. induction H as [|t h t1 h1 H0 H IH]; intros r1 H1 H2; [constructor|].
        inversion H1 as [|r0 h0 r1' h1' K1 K2]; subst. apply Forall_cons_iff in H2 as [H2 H2']. constructor; [|eauto].
        apply forall2_length in H0, K1. congruence. }
      specialize (X _ _ _ D C LR). rewrite Forall_forall in X. auto.
Qed.

(** ** Tables with empty cells *)
Lemma line_src_no_nl cs : Forall cell_src cs -> no_nl (line_of cs).
Proof.
  intros F I. unfold line_of in I. apply in_concat in I as (u & Iu & I). apply in_map_iff in Iu as (x & <- & Ix).
  rewrite Forall_forall in F. apply in_app_iff in I as [I|[I|[]]]; [|discriminate I].
  apply F in Ix as (_ & N). auto.
Qed.
Lemma cells_filled cs : Forall cell_src cs -> cells (line_of cs) = map trim (filled cs).
Proof.
  intros F. unfold cells.
  assert (E : split [c_pipe] (line_of cs) = cs ++ [[]]).
  { induction F as [|x cs (B & _) F IH]; [reflexivity|]. unfold line_of. cbn [map concat]. rewrite <- app_assoc. cbn [app].
    unfold split. rewrite split_one_first by exact B. cbn [rev app]. now f_equal. }
  rewrite E, filter_app. cbn [filter is_empty negb]. rewrite app_nil_r. f_equal. unfold filled. apply filter_ext. now intros [|].
Qed.
Lemma count_src cs : Forall cell_src cs -> count_matches [c_pipe] (line_of cs) = length cs.
Proof.
  induction 1 as [|x cs (B & _) F IH]; [reflexivity|]. unfold line_of. cbn [map concat length]. rewrite <- app_assoc.
  rewrite count_miss by exact B. rewrite (count_hit c_pipe []). now f_equal.
Qed.
Lemma table_lines_src rows r : Forall (Forall cell_src) rows -> starts_in [c_pipe] r = false -> forall n, length rows < n ->
  table_lines n (concat (map (fun row => row_src row ++ [c_nl]) rows) ++ r) = Some (map line_of rows, r).
Proof.
  intros F S0. induction F as [|row rows B F IH]; intros n L; (destruct n as [|n]; [cbn in L; lia|]).
  - cbn [map concat app table_lines]. now rewrite (starts_in_next c_pipe _ r S0) by (now left).
  - cbn [map concat table_lines]. unfold row_src at 1. fold (line_of row). rewrite <- !app_assoc.
    change (next_if_eq c_pipe ([c_pipe] ++ ?z)) with (Some z).
    cbn iota. unfold consume_while.
    match goal with |- context [take_while not_nl (line_of row ++ ?z)] =>
      destruct (text_take not_nl (line_of row) z) as [-> ->] end.
    { apply not_nl_forall. now apply line_src_no_nl. }
    { right. exists c_nl. eexists. split; reflexivity. }
    cbn [app next tl]. rewrite IH by (cbn in L; lia). reflexivity.
Qed.
Lemma row_src_lexes row hs : Forall cell_src row -> Forall2 (fun x y => cell_shows (trim x) y) (filled row) hs ->
  exists tss F, Forall2 displays_as tss hs /\ forall f, F <= f -> lex_row (lex f) (line_of row) = Ret tss.
Proof.
  intros B H. unfold lex_row. rewrite cells_filled by exact B. clear B.
  induction H as [|x y fr hs C H (tss & F & D & L)].
  - exists [], 0. split; [constructor|]. reflexivity.
  - destruct (cell_lexes _ _ C) as (ts & LX & DA). apply lexes_at in LX as [F1 LX].
    exists (usable ts :: tss), (F + F1). split; [constructor; [exact DA | exact D]|].
    intros f Lf. cbn [map mapM]. rewrite LX by lia. cbn [bind]. rewrite L by lia. reflexivity.
Qed.
Lemma rows_src_lex als rows : Forall (Forall cell_src) rows -> forall hrows,
  Forall2 (Forall2 (fun x y => cell_shows (trim x) y)) (map filled rows) hrows ->
  exists tsss F, Forall2 (Forall2 displays_as) tsss hrows /\ forall f, F <= f ->
    mapM (fun l => bind (lex_row (lex f) l) (fun cs => Ret (combine als cs))) (map line_of rows)
    = Ret (map (fun tss => combine (als : list alignment) tss) tsss).
Proof.
  induction 1 as [|row rows B1 B IH]; intros hrows H; inversion H; subst.
  - exists [], 0. split; [constructor|]. reflexivity.
  - match goal with K : Forall2 _ (map filled rows) ?hs, C : Forall2 _ (filled row) ?y |- _ =>
      destruct (IH hs K) as (tsss & F & D & L); destruct (row_src_lexes row y B1 C) as (tss & F1 & D1 & L1) end.
    exists (tss :: tsss), (F + F1). split; [now constructor|].
    intros f Lf. cbn [map mapM]. rewrite L1 by lia. cbn [bind]. rewrite L by lia. reflexivity.
Qed.
Lemma eff_table_gaps als heads tss tsss hrows b c q : Forall2 (Forall2 displays_as) (tss :: tsss) hrows ->
  effect (Table (combine (map al als) (map trim heads)) (map (fun tss => combine (map al als) tss) (tss :: tsss)))
    b c q LNone b c q LNone
    (if Nat.min (length als) (length heads) =? Nat.min (length als) (length tss) then table_tag als heads hrows else []) [].
Proof.
  intros D. destruct (rows_out als (tss :: tsss) hrows D) as [F RO]. eff. eexists. split.
  - exists F. cbn [pre body is_list_or_newline is_task_or_newline is_inline is_par_closer is_quote_or_newline andb orb
      in_paragraph in_code quote_level in_ordered_list in_unordered_list in_task_list].
    cbn [map row0_len]. rewrite !combine_length, !map_length.
    change (combine (map al als) tss :: map (fun tss0 => combine (map al als) tss0) tsss)
      with (map (fun tss0 => combine (map al als) tss0) (tss :: tsss)).
    unfold table_html. rewrite (RO F (le_n F)). cbn [bind]. rewrite th_tags.
    instantiate (1 := if Nat.min (length als) (length heads) =? Nat.min (length als) (length tss) then _ else _).
    destruct (_ =? _); reflexivity.
  - destruct (_ =? _).
    + unfold table_tag. done_eff.
    + done_eff.
Qed.
Lemma lex_table_gaps hd r heads delims rows hrows : rows <> [] ->
    length delims = length heads -> Forall (fun row => length row = length heads) rows ->
    Forall cell_src heads -> Forall cell_src delims -> Forall (Forall cell_src) rows ->
    Forall2 (Forall2 (fun x y => cell_shows (trim x) y)) (map filled rows) hrows ->
    starts_in [c_pipe] r = false ->
  exists t, lexed hd (concat (map (fun row => row_src row ++ [c_nl]) (heads :: delims :: rows))) t r /\
    forall b c q, effect t b c q LNone b c q LNone
      (if columns (filled delims) (filled heads) =? columns (filled delims) (filled (first_row rows))
       then table_tag (map (fun x => delim (trim x)) (filled delims)) (filled heads) hrows else []) [].
Proof.
  intros NR LD LR BH BD BR C S0.
  set (als := map (fun x => delim (trim x)) (filled delims)).
  destruct (rows_src_lex (map al als) rows BR hrows C) as (tsss & F & D & L).
  exists (Table (combine (map al als) (map trim (filled heads))) (map (fun tss => combine (map al als) tss) tsss)). split.
  - intros last. exists F. set (s := concat _ ++ r).
    assert (HS : exists s', s = c_pipe :: s'). { eexists. unfold s. reflexivity. }
    destruct HS as [s' HS]. rewrite HS at 1. cbn [next_token]. rewrite <- HS.
    match goal with |- context [dispatch ?L ?R ?N ?i ?l ?c ?s] =>
      replace (dispatch L R N i l c s) with (lex_pipes L s) by (destruct hd; reflexivity) end.
    unfold lex_pipes. unfold s.
    rewrite table_lines_src; auto.
    2:{ rewrite app_length. apply Nat.lt_succ_r.
        transitivity (length (concat (map (fun row => row_src row ++ [c_nl]) (heads :: delims :: rows)))); [|lia].
        generalize (heads :: delims :: rows). clear. intros l. induction l as [|x l IH]; [cbn; lia|].
        cbn [map concat length]. rewrite !app_length. cbn [length]. lia. }
    cbn [map]. assert (L3 : (length (line_of heads :: line_of delims :: map line_of rows) <? 3) = false).
    { apply Nat.ltb_ge. cbn [length]. rewrite map_length. destruct rows; [easy|]. cbn [length]. lia. }
    rewrite L3.
    assert (CM : forallb (fun l => count_matches [c_pipe] l =? count_matches [c_pipe] (line_of heads))
                   (line_of heads :: line_of delims :: map line_of rows) = true).
    { apply forallb_forall. intros x [<-|[<-|I]].
      - apply Nat.eqb_refl.
      - rewrite !count_src by auto. now rewrite LD, Nat.eqb_refl.
      - apply in_map_iff in I as (row & <- & I). rewrite Forall_forall in LR, BR.
        rewrite !count_src by auto. now rewrite (LR row I), Nat.eqb_refl. }
    rewrite CM. cbn [negb]. rewrite !cells_filled by auto.
    assert (EA : map cell_alignment (map trim (filled delims)) = map al als).
    { unfold als. rewrite !map_map. apply map_ext. intros x. apply delim_alignment. }
    rewrite EA, (L F (le_n F)). reflexivity.
  - intros b c q. destruct rows as [|row rows]; [easy|]. cbn [map first_row] in *. inversion C as [|? hs0 ? hrows0 C1 C2]; subst.
    destruct tsss as [|tss tsss]; [inversion D|].
    assert (EL : length tss = length (filled row)).
    { inversion D as [|? ? ? ? D1 D2]; subst. apply forall2_length in D1, C1. congruence. }
    pose proof (eff_table_gaps als (filled heads) tss tsss (hs0 :: hrows0) b c q D) as E. rewrite EL in E.
    assert (EA : length als = length (filled delims)) by (unfold als; now rewrite map_length). rewrite EA in E. exact E.
Qed.
