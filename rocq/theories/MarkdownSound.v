(** * MarkdownSound: the renderer displays what the rules of Markdown.v say. *)
From Coq Require Import Ascii String.
From Verif Require Import Strings StringsFacts Token Iter Lexer Parser LexerFacts LexMono SanitizeFacts
  LinkFacts NoPanic DetailsFacts RawHtml Exec Markdown MarkdownFacts MarkdownBlocks MarkdownLists MarkdownTables.
Open Scope list_scope.

Definition ends_in (p p' : pstate) (h : str) (f : final) : Prop :=
  html p' ++ close_p (in_paragraph p') = html p ++ h /\
  quote_level p' = f_quote f /\
  (if in_task_list p' || in_unordered_list p' then lit "</ul>" else [])
    ++ (if in_ordered_list p' then lit "</ol>" else []) = f_close f /\
  in_code p' = f_code f /\ references p' = references p ++ f_notes f.
Definition sound (hd b c : bool) (q : nat) (l : listkind) (s h : str) (f : final) : Prop :=
  forall p last, at_state b c q l p -> exists ts last' p',
    steps (ig_of hd) last s ts last' [] /\ plays ts p p' /\ ends_in p p' h f.

Lemma flat_map_refs ns : flat_map ref_html ns = concat (map note_li ns).
Proof.
  rewrite flat_map_concat_map. f_equal. apply map_ext. intros [i t]. unfold ref_html, note_li. cbn [fst snd].
  now rewrite !escaped_sanitize.
Qed.
Lemma refs_notes ns : refs_html ns = notes_html ns.
Proof.
  destruct ns as [|n ns]; [reflexivity|]. unfold refs_html, notes_html. rewrite flat_map_refs. reflexivity.
Qed.
Lemma ends_nl_app h : ends_nl (h ++ [c_nl]) = true.
Proof. apply ends_with_app. Qed.
Lemma finish_eq p y :
  y = ((html p ++ close_p (in_paragraph p)) ++ nrep (quote_level p) (lit "</blockquote>" ++ [c_nl]))
      ++ (if in_task_list p || in_unordered_list p then lit "</ul>" else [])
      ++ (if in_ordered_list p then lit "</ol>" else []) ->
  finish p = with_nl y ++ (if in_code p then lit "</code></pre>" else []) ++ notes_html (references p).
Proof.
  intros E0.
  assert (N : ends_nl (with_nl y) = true).
  { unfold with_nl. destruct (ends_with [c_nl] y) eqn:E; [exact E | apply ends_nl_app]. }
  rewrite <- refs_notes.
  transitivity ((if in_code p then (if ends_nl (with_nl y) then with_nl y else with_nl y ++ [c_nl]) ++ lit "</code></pre>"
                 else with_nl y) ++ refs_html (references p)).
  { rewrite app_assoc in E0. rewrite E0. reflexivity. }
  rewrite N. destruct (in_code p); now rewrite <- ?app_assoc.
Qed.
Lemma finish_fin p p' h f : ends_in p p' h f -> html p = [] -> references p = [] -> finish p' = fin h f.
Proof.
  intros (E1 & E2 & E3 & E4 & E5) H R. rewrite H in E1. rewrite R in E5. cbn [app] in E1, E5.
  rewrite (finish_eq p' _ eq_refl). rewrite E1, E2, E3, E4, E5. unfold fin. now rewrite times_nrep, <- app_assoc.
Qed.
Lemma at_init : at_state false false 0 LNone pinit.
Proof. repeat split. Qed.
Lemma sound_renders hd s h f : sound hd false false 0 LNone s h f ->
  exists ts, lexes (ig_of hd) s ts /\ parses ts (fin h f) /\ renders_ig (ig_of hd) s (fin h f).
Proof.
  intros H. destruct (H pinit None at_init) as (ts & last' & p' & S & P & E).
  exists ts. pose proof (steps_lexes _ _ _ _ S) as L. pose proof (plays_parses _ _ P) as Q.
  rewrite (finish_fin _ _ _ _ E eq_refl eq_refl) in Q. split; [exact L|]. split; [exact Q|].
  eapply lexes_renders; eauto.
Qed.

(** One token. *)
Lemma sound_step hd b c q l b' c' q' l' t s r r' h1 ns h f :
  effect t b c q l b' c' q' l' h1 ns -> lexed_to hd s t r r' -> sound hd b' c' q' l' r' h f ->
  sound hd b c q l (s ++ r) (h1 ++ h) (mkF (f_code f) (f_quote f) (f_close f) (ns ++ f_notes f)).
Proof.
  intros E L H p last A. destruct (E p A) as (p1 & D & A1 & H1 & R1).
  destruct (H p1 (Some t) A1) as (ts & last' & p' & S & P & E1 & E2 & E3 & E4 & E5).
  exists (t :: ts), last', p'. split; [econstructor; [apply L | exact S]|].
  split; [econstructor; eauto|]. repeat split; auto.
  - rewrite E1, H1. now rewrite <- app_assoc.
  - cbn [f_notes]. rewrite E5, R1. now rewrite <- app_assoc.
Qed.
Lemma sound_step0 hd b c q l b' c' q' l' t s r r' h1 h f :
  effect t b c q l b' c' q' l' h1 [] -> lexed_to hd s t r r' -> sound hd b' c' q' l' r' h f ->
  sound hd b c q l (s ++ r) (h1 ++ h) f.
Proof.
  intros E L H. destruct f as [f1 f2 f3 f4]. exact (sound_step _ _ _ _ _ _ _ _ _ _ _ _ _ _ _ _ _ E L H).
Qed.

Theorem doc_sound hd b c q l s h f : doc hd b c q l s h f -> sound hd b c q l s h f.
Proof.
  induction 1 as
    [hd b c q l
    |hd b c q n s h f Hn S0 D IH
    |hd b c q l n s h f NL Hn S0 D IH
    |hd b c q s r h1 h f P D IH
    |hd c q l s r h1 h f P D IH
    |hd c q s r h1 h f P D IH
    |hd c q l s r h1 h f NL P D IH
    |hd b c q s t r h f CS D IH
    |hd b c q ws t r h f W N NH S0 NE D IH
    |hd b c q lang t r h f N1 N2 N3 S0 D IH
    |hd b c q n sep line l0 t hi fi r h f HD Hn HS N LE NI HL D1 IH1 FI D IH
    |hd b c q n line r h f HD Hn HL LE NR D IH
    |hd b c q n sep line l0 t hi fi r h f HD Hn HS N LE NI HL D1 IH1 FI D IH
    |hd b c q s r h f RL D IH
    |hd b c q l d t r h f HL DG N LE D IH
    |hd b c q l m t r hi fi h f HL M N LE S0 NT NC D1 IH1 D IH
    |hd b c q l m t m' t' r hi fi h f HL M M' N N' LE S0 S0' NT D1 IH1 D IH
    |hd b c q l m t u hu r hi fi h f HL M N N' LE S0 S0' LZ NT D1 IH1 D IH
    |hd b c q l m t r hi fi h f HL M N LE S0 D1 IH1 D IH
    |hd b c q l m ck mk t r h f HL M T N LE NC D IH
    |hd b c q n t r hi fi h f Hn N S0 LE D1 IH1 D IH
    |hd b c q heads delims rows hrows r h f NH NR LD LR BH BD BR C S0 D IH
    |hd b c q i t r h f N1 W N2 S0 D IH
    |hd b c q summary body hi fi r h f N1 N2 N3 N4 D1 IH1 D IH
    |hd b c q heads delims rows hrows r h f NR LD LR BH BD BR C S0 D IH].
  - intros p last (A1 & A2 & A3 & A4 & A5 & A6). exists [], last, p. split; [constructor|]. split; [constructor|].
    repeat split; cbn [f_code f_quote f_close f_notes]; auto.
    + now rewrite A1.
    + rewrite A4, A5, A6. now destruct l.
    + now rewrite app_nil_r.
  - eapply sound_step0; [apply eff_newline | intros last; now apply lex_nls | exact IH].
  - change h with ([] ++ h). destruct (Nat.eq_dec n 1) as [-> |N1].
    + eapply sound_step0; [apply eff_list_one_newline | intros last; apply (lex_newline hd s S0) | exact IH].
    + eapply sound_step0; [now apply eff_list_newline | intros last; apply lex_nls; [lia | auto] | exact IH].
  - apply piece_lexed in P as (t & T & L).
    eapply sound_step0; [apply eff_blank; exact T | exact L | exact IH].
  - apply piece_lexed in P as (t & T & L). rewrite !app_assoc. rewrite <- (app_assoc _ (lit "<p>")).
    eapply sound_step0; [apply eff_open; exact T | exact L | exact IH].
  - apply piece_lexed in P as (t & T & L).
    eapply sound_step0; [apply eff_more; exact T | exact L | exact IH].
  - apply piece_lexed in P as (t & T & L). rewrite !app_assoc. rewrite <- (app_assoc _ [c_nl]).
    eapply sound_step0; [apply eff_more_list; [exact NL | exact T] | exact L | exact IH].
  - rewrite app_assoc. eapply sound_step0; [apply eff_code | exact (lex_code hd r s t CS) | exact IH].
  - rewrite (app_assoc ws), (app_assoc (if c then _ else _)). eapply sound_step0; [apply eff_code | | exact IH].
    exact (lex_indented hd r ws t W N NH S0 NE).
  - eapply sound_step0; [apply eff_codeblock | exact (lex_fence hd r lang t N1 N2 N3 S0) | exact IH].
  - subst hd fi. destruct (sound_renders _ _ _ _ IH1) as (_ & _ & _ & R).
    assert (F : fin (lit "<p>" ++ hi ++ lit "</p>" ++ [c_nl]) (mkF false 0 [] []) = lit "<p>" ++ hi ++ lit "</p>" ++ [c_nl]).
    { unfold fin, with_nl. cbn [f_quote f_close f_code f_notes times repeat concat notes_html]. rewrite !app_nil_r.
      rewrite !(app_assoc (lit "<p>")), !(app_assoc _ (lit "</p>")). now rewrite ends_with_app. }
    rewrite F in R. rewrite app_assoc. eapply sound_step0; [apply eff_header | | exact IH].
    pose proof (lex_heading_ok false n sep line l0 t _ r eq_refl Hn HS N LE NI HL R) as L.
    unfold heading_unwrap in L. rewrite strip_p in L. exact L.
  - rewrite app_assoc. eapply sound_step0; [apply eff_header | | exact IH].
    exact (lex_heading_empty hd n line r HD Hn HL LE NR).
  - subst hd. destruct (sound_renders _ _ _ _ IH1) as (_ & _ & _ & R).
    rewrite app_assoc. eapply sound_step0; [apply eff_header | | exact IH].
    pose proof (lex_heading_ok false n sep line l0 t _ r eq_refl Hn HS N LE NI HL R) as L.
    unfold fin in L. rewrite FI, unwrap_code in L. exact L.
  - rewrite app_assoc. eapply sound_step0; [apply eff_rule | exact (lex_rule hd r s RL) | exact IH].
  - rewrite app_assoc. eapply sound_step0; [apply eff_ol; exact HL | exact (lex_ol hd r d t DG N LE) | exact IH].
  - destruct (sound_renders _ _ _ _ IH1) as (_ & _ & _ & R).
    rewrite app_assoc. eapply sound_step0; [apply eff_ul; [exact HL| |exact R] | exact (lex_ul hd r m t M N LE S0 NT NC) | exact IH].
    destruct t as [|x t]; [auto|]. cbn [starts_in] in *. destruct (mem_char x [c_tab]) eqn:X; [|auto].
    apply mem_char_iff in X as [<-|[]]. discriminate S0.
  - destruct (sound_renders _ _ _ _ IH1) as (_ & _ & _ & R).
    destruct (lex_ul_nested hd r m t m' t' M M' N N' LE S0 S0' NT) as (tok & NP & L).
    rewrite app_assoc. eapply sound_step0; [apply (eff_ul_nested t tok _ b c q l HL (tab_dash_start t S0) NP R) | exact L | exact IH].
  - destruct (sound_renders _ _ _ _ IH1) as (_ & _ & _ & R).
    destruct (lex_ul_lazy hd r m t u hu M N N' LE S0 S0' LZ NT) as (toks & parts & L & F & E).
    rewrite app_assoc. eapply sound_step0; [apply (eff_ul_lazy t toks parts _ _ _ b c q l HL (tab_dash_start t S0) R F E) | exact L | exact IH].
  - destruct (sound_renders _ _ _ _ IH1) as (_ & _ & _ & R).
    rewrite app_assoc. eapply sound_step0; [apply eff_ul; [exact HL|exact S0|exact R] | exact (lex_ul_star hd r m t M N LE) | exact IH].
  - rewrite app_assoc. eapply sound_step0; [apply eff_task; exact HL | exact (lex_task hd r m ck mk t M T N LE NC) | exact IH].
  - destruct (sound_renders _ _ _ _ IH1) as (_ & _ & _ & R).
    rewrite !app_assoc. rewrite <- (app_assoc _ (quote_tags q (n mod 256))).
    eapply sound_step0; [apply eff_quote; [|exact R] | exact (lex_quote hd r n t Hn N S0 LE) | exact IH].
    intros ->. discriminate S0.
  - destruct (lex_table hd r heads delims rows hrows NH NR LD LR BH BD BR C S0) as (t & L & E).
    eapply sound_step0; [apply E | exact L | exact IH].
  - exact (sound_step _ _ _ _ _ _ _ _ _ _ _ _ _ _ _ _ _ (eff_note i (trim t) b c q) (lex_note hd r i t N1 W N2 S0) IH).
  - destruct (sound_renders _ _ _ _ IH1) as (ts & L & P & _).
    rewrite (app_assoc (close_p b)). eapply sound_step0; [apply eff_detail; exact P | exact (lex_details hd r summary body ts N1 N2 N3 N4 L) | exact IH].
  - destruct (lex_table_gaps hd r heads delims rows hrows NR LD LR BH BD BR C S0) as (t & L & E).
    eapply sound_step0; [apply E | exact L | exact IH].
Qed.
Theorem displays_renders s out : displays s out -> renders s out.
Proof. intros (h & f & D & ->). now destruct (sound_renders _ _ _ _ (doc_sound _ _ _ _ _ _ _ _ D)) as (_ & _ & _ & R). Qed.
