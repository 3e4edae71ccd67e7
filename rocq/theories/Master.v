(** * Master: what holds of every text the lexer can see and of every piece the
    parser can push holds of the whole output.

    [OK] is a property of texts closed under taking substrings, [P] a property of
    html closed under concatenation.  [templates OK P] lists what has to be
    checked for one piece of output at a time; [render_ok] concludes for whole
    documents, through every level of recursion between lexer and parser. *)
From Coq Require Import Ascii String.
From Verif Require Import Strings StringsFacts Token Iter Lexer Parser LexerFacts LexMono.
Open Scope list_scope.

(** The fixed pieces of html that the parser pushes on their own. *)
Definition fixed_pieces : list str :=
  [ []; [c_nl]; [c_tab]; lit "<p>"; lit "</p>" ++ [c_nl]; lit "</p>"; lit "</blockquote>";
    lit "<blockquote>" ++ [c_nl]; lit "</blockquote>" ++ [c_nl];
    lit "</ol>" ++ [c_nl]; lit "</ul>" ++ [c_nl]; lit "</ol>"; lit "</ul>";
    lit "<ol>" ++ [c_nl]; lit "<ul>" ++ [c_nl]; lit "<ul class=""contains-task-list"">";
    lit "<li>"; lit "<li>" ++ [c_nl]; lit "</li>"; lit "</li>" ++ [c_nl];
    lit "<pre><code>"; lit "</code></pre>"; lit "<em>"; lit "</em>"; lit "<strong>";
    lit "</strong>"; lit "<strong><em>"; lit "</em></strong>"; lit "<strike>";
    lit "</strike>"; lit "<br>"; lit "<hr />"; lit "<hr />" ++ [c_nl];
    [c_nl; c_tab] ++ lit "<tr>"; [c_nl; c_tab] ++ lit "</tr>";
    lit "<table class=""table table-bordered"">" ++ [c_nl; c_tab] ++ lit "<thead>"
         ++ [c_nl; c_tab] ++ lit "<tr>" ++ [c_nl];
    [c_tab] ++ lit "</tr>" ++ [c_nl; c_tab] ++ lit "</thead>" ++ [c_nl; c_tab]
         ++ lit "<tbody>";
    [c_nl; c_tab] ++ lit "</tbody>" ++ [c_nl] ++ lit "</table>";
    lit "<div class=""footnotes"" role=""doc-endnotes"">" ++ [c_nl]
      ++ [c_tab] ++ lit "<ol>" ++ [c_nl];
    [c_tab] ++ lit "</ol>" ++ [c_nl] ++ lit "</div>" ++ [c_nl] ].

Record texts (OK : str -> Prop) : Prop := {
  x_infix : forall a s, infix a s -> OK s -> OK a;
  x_eof : OK (lit "EOF");
  x_nonlink : OK (lit "Non link token returned from lex_links");
  x_sanitize : forall s, OK s -> OK (sanitize s) }.

Record templates (OK P : str -> Prop) : Prop := {
  t_fixed : Forall P fixed_pieces;
  t_app : forall a b, P a -> P b -> P (a ++ b);
  t_sanitize : forall s, OK s -> P (sanitize s);
  t_plaintext : forall s, OK s -> P (plaintext_html s);
  t_header : forall n t, 1 <= n <= 6 -> heading_text P t -> P (header_html n t None);
  t_image : forall u t, seen OK c_bang -> seen OK c_lbrk -> (exists h, link_at OK [c_bang] t u h) -> OK t -> P (image_html (url_content u) (Some t));
  t_link : forall u t h, seen OK c_lbrk -> link_at OK [] t u h -> OK t -> opt_ok OK h -> P (link_html u (Some t) h);
  t_auto : forall u, seen OK c_lt -> auto_at OK u -> url_scheme u <> None -> P (link_html u None None);
  t_detail : forall s h, OK s -> P h -> P (detail_html s h);
  t_task : forall c t, OK t -> P (task_html c t);
  t_th : forall a t, OK t -> P (th_html (a, t));
  t_td : forall a h, P h -> P (td_html a h);
  t_pad : forall h, P h -> P (pre_code_pad h);
  t_untab : forall h, P h -> P (replace [c_tab] (lit "  ") h);
  t_ref : forall a b, seen OK c_lbrk -> OK a -> OK b -> P (ref_html (a, b)) }.

Lemma replace_char_cons c r x s :
  replace_char c r (x :: s) = (if ceq x c then r else [x]) ++ replace_char c r s.
Proof. reflexivity. Qed.
Lemma sanitize_tab s : sanitize (c_tab :: s) = c_tab :: sanitize s.
Proof. reflexivity. Qed.

Lemma Ret_inj {A} (a b : A) : Ret a = Ret b -> a = b.
Proof. congruence. Qed.
Ltac ri := let E := fresh "E" in intros E; apply Ret_inj in E; rewrite <- E; clear E.

Section Master.
Variables (OK P : str -> Prop).
Hypothesis X : texts OK.
Hypothesis T : templates OK P.
Local Notation tok := (tok_ok OK P).

Lemma fixed_in l : In l fixed_pieces -> P l.
Proof. apply Forall_forall, T. Qed.
Ltac fx := apply fixed_in; cbv [fixed_pieces In]; tauto.
Lemma P_nil : P []. Proof. fx. Qed.
Lemma P_nrep n l : P l -> P (nrep n l).
Proof. intros H. induction n; cbn [nrep]; [apply P_nil|]. now apply (t_app _ _ T). Qed.
Lemma P_concat l : Forall P l -> P (concat l).
Proof. induction 1; cbn [concat]; [apply P_nil|]. now apply (t_app _ _ T). Qed.

(** The invariant of the parser's loop. *)
Definition pinv (p : pstate) : Prop :=
  P (html p) /\ Forall (fun r => seen OK c_lbrk /\ OK (fst r) /\ OK (snd r)) (references p).

Lemma pinv_push s p : P s -> pinv p -> pinv (push s p).
Proof. intros H [A B]. split; cbn; [now apply (t_app _ _ T) | auto]. Qed.
Lemma pinv_set_quote b p : pinv p -> pinv (set_quote b p). Proof. auto. Qed.
Lemma pinv_set_task b p : pinv p -> pinv (set_task b p). Proof. auto. Qed.
Lemma pinv_set_par b p : pinv p -> pinv (set_par b p). Proof. auto. Qed.
Lemma pinv_set_ol b p : pinv p -> pinv (set_ol b p). Proof. auto. Qed.
Lemma pinv_set_ul b p : pinv p -> pinv (set_ul b p). Proof. auto. Qed.
Lemma pinv_set_code b p : pinv p -> pinv (set_code b p). Proof. auto. Qed.
Lemma pinv_open_par p : pinv p -> pinv (open_par p).
Proof.
  unfold open_par. destruct (in_paragraph p); [auto|]. intros. apply pinv_push; [fx|].
  now apply pinv_set_par.
Qed.

Ltac pi := repeat first
  [ assumption
  | apply pinv_push; [first [fx | apply P_nrep; fx | idtac] |]
  | apply pinv_set_quote | apply pinv_set_task | apply pinv_set_par | apply pinv_set_ol
  | apply pinv_set_ul | apply pinv_set_code | apply pinv_open_par ].

Lemma pre_inv t p : pinv p -> pinv (pre t p).
Proof.
  intros H. destruct t; cbn [pre]; try assumption;
  repeat match goal with |- context [if ?b then _ else _] => destruct b end; pi.
Qed.

Section Body.
Variable RENDER : str -> res str.
Variable PARSE : list token -> res str.
Hypothesis HR : forall s h, OK s -> RENDER s = Ret h -> P h.
Hypothesis HP : forall ts h, Forall tok ts -> PARSE ts = Ret h -> P h.

Lemma list_child_ok t h : tok t -> list_child RENDER t = Ret h -> P h.
Proof.
  intros H. destruct t; cbn [list_child]; try (ri; apply P_nil).
  assert (HO : OK t) by (inversion H as [? H']; inversion H'; auto).
  destruct (starts_with _ t);
    (destruct (RENDER _) as [x| |] eqn:R; cbn [bind]; try easy;
     ri; apply (t_pad _ _ T); eapply HR; [|exact R]).
  - eapply (x_infix _ X); [|exact HO]. eapply infix_trans; [apply infix_trim_start_by|].
    apply infix_skipn.
  - eapply (x_infix _ X); [|exact HO]. apply infix_trim_start_by.
Qed.

Lemma cell_token_ok e t h : Forall tok e -> tok t -> cell_token PARSE e t = Ret h -> P h.
Proof.
  intros HE [x H]. inversion H; subst; cbn [cell_token];
    first [ apply HP; assumption
          | ri;
            repeat (apply (t_app _ _ T); [fx|]);
            first [ fx | apply (t_sanitize _ _ T); assumption
                  | apply (t_app _ _ T); [apply (t_sanitize _ _ T); assumption | fx] ] ].
Qed.

Lemma table_html_ok hs rows h :
  Forall (fun x => OK (snd x)) hs -> Forall (Forall (fun c => Forall tok (snd c))) rows ->
  table_html PARSE hs rows = Ret h -> P h.
Proof.
  intros HH HR'. unfold table_html.
  destruct (mapM _ rows) as [rs| |] eqn:M; cbn [bind]; try easy.
  assert (P (concat rs)) as C.
  { apply P_concat. revert M. apply mapM_ok. intros row h' I.
    rewrite Forall_forall in HR'. specialize (HR' _ I). unfold row_html.
    destruct (mapM _ row) as [cs| |] eqn:M; cbn [bind]; try easy. ri.
    change (P (([c_nl; c_tab] ++ lit "<tr>")
               ++ concat cs ++ ([c_nl; c_tab] ++ lit "</tr>"))).
    apply (t_app _ _ T); [fx|]. apply (t_app _ _ T); [|fx].
    apply P_concat. revert M. apply mapM_ok. intros e h'' I'.
    rewrite Forall_forall in HR'. specialize (HR' _ I'). unfold cell_html.
    destruct (mapM _ (snd e)) as [ps| |] eqn:M; cbn [bind]; try easy. ri.
    apply (t_td _ _ T), P_concat. revert M. apply mapM_ok. intros t x I''.
    apply cell_token_ok; auto. rewrite Forall_forall in HR'. auto. }
  ri.
  change (P ((lit "<table class=""table table-bordered"">" ++ [c_nl; c_tab] ++ lit "<thead>"
         ++ [c_nl; c_tab] ++ lit "<tr>" ++ [c_nl])
         ++ flat_map th_html hs
         ++ ([c_tab] ++ lit "</tr>" ++ [c_nl; c_tab] ++ lit "</thead>" ++ [c_nl; c_tab]
             ++ lit "<tbody>") ++ concat rs
         ++ ([c_nl; c_tab] ++ lit "</tbody>" ++ [c_nl] ++ lit "</table>"))).
  apply (t_app _ _ T); [fx|]. apply (t_app _ _ T).
  { rewrite flat_map_concat_map. apply P_concat. rewrite Forall_forall in HH |- *.
    intros x I. apply in_map_iff in I as ([a t] & <- & I). apply (t_th _ _ T). apply (HH _ I). }
  apply (t_app _ _ T); [fx|]. apply (t_app _ _ T); [auto | fx].
Qed.

Lemma body_ok t p p' : tok t -> pinv p -> body RENDER PARSE t p = Ret p' -> pinv p'.
Proof.
  intros [x H] I. inversion H; subst; cbn [body].
  - ri. destruct (is_blank t0); pi. now apply (t_plaintext _ _ T).
  - ri. pi. now apply (t_header _ _ T).
  - destruct (mapM _ toks) as [parts| |] eqn:M; cbn [bind]; try easy.
    ri.
    apply pinv_push; [|destruct (in_unordered_list p); pi].
    assert (P (concat parts)) as C.
    { apply P_concat. revert M. apply mapM_ok. intros x y Ix. apply list_child_ok.
      match goal with F : Forall (tok_ok OK P) toks |- _ => rewrite Forall_forall in F; auto end. }
    rewrite app_assoc. apply (t_app _ _ T).
    + destruct (forallb _ _); fx.
    + apply (t_app _ _ T); [auto | fx].
  - ri. apply pinv_push; [|destruct (in_ordered_list p); pi].
    change (P ((lit "<li>" ++ [c_nl]) ++ sanitize t0 ++ (lit "</li>" ++ [c_nl]))).
    apply (t_app _ _ T); [fx|]. apply (t_app _ _ T); [|fx]. now apply (t_sanitize _ _ T).
  - ri. pi. apply (t_app _ _ T (lit "<em>")); [fx|].
    apply (t_app _ _ T); [|fx]. now apply (t_sanitize _ _ T).
  - ri. pi. apply (t_app _ _ T (lit "<strong>")); [fx|].
    apply (t_app _ _ T); [|fx]. now apply (t_sanitize _ _ T).
  - ri. pi. apply (t_app _ _ T (lit "<strong><em>")); [fx|].
    apply (t_app _ _ T); [|fx]. now apply (t_sanitize _ _ T).
  - ri. auto.
  - ri. auto.
  - ri. pi.
  - ri. pi. apply (t_app _ _ T (lit "<strike>")); [fx|].
    apply (t_app _ _ T); [|fx]. now apply (t_sanitize _ _ T).
  - ri. pi. now apply (t_sanitize _ _ T).
  - ri. pi. rewrite sanitize_tab. apply (t_app _ _ T [c_tab]); [fx|]. now apply (t_sanitize _ _ T).
  - ri. auto.
  - set (p1 := if in_paragraph p then _ else p).
    assert (I1 : pinv p1) by (subst p1; destruct (in_paragraph p); pi).
    clearbody p1.
    assert (I2 : pinv (set_quote n (push (quote_move (quote_level p1) n) p1))).
    { pi. unfold quote_move. destruct (_ =? _); [fx|].
      destruct (_ <? _); apply P_nrep; fx. }
    destruct (is_empty t0). { ri. auto. }
    destruct (RENDER _) as [h| |] eqn:R; cbn [bind]; try easy. ri.
    apply pinv_push; [|auto]. apply (t_untab _ _ T). eapply HR; [|exact R].
    apply (x_sanitize _ X). eapply (x_infix _ X); [|eassumption]. apply infix_trim_start_by.
  - ri. pi. now apply (t_image _ _ T).
  - ri. pi. now apply (t_link _ _ T).
  - ri. pi. now apply (t_auto _ _ T).
  - destruct (PARSE toks) as [h| |] eqn:R; cbn [bind]; try easy. ri.
    apply pinv_push; [|destruct (in_paragraph p); pi].
    apply (t_detail _ _ T); [auto|]. eapply HP; eauto.
  - destruct (row0_len rows); [|easy]. destruct (negb _). { ri. auto. }
    destruct (table_html _ _ _) as [h| |] eqn:E; cbn [bind]; try easy. ri.
    pi. eapply table_html_ok; eauto.
  - ri. apply pinv_push; [|destruct (in_task_list p); pi].
    now apply (t_task _ _ T).
  - ri. destruct I as [A B]. split; cbn; [auto|].
    apply Forall_app. split; [auto|]. constructor; [auto | constructor].
Qed.

Lemma parse_loop_ok ts p p' :
  Forall tok ts -> pinv p -> parse_loop RENDER PARSE ts p = Ret p' -> pinv p'.
Proof.
  revert p; induction ts as [|t ts IH]; intros p F I; cbn [parse_loop].
  - ri. auto.
  - inversion F; subst. destruct (body _ _ t _) as [p1| |] eqn:B; cbn [bind]; try easy.
    apply IH; [auto|]. eapply body_ok; [eassumption | | exact B]. now apply pre_inv.
Qed.

Lemma finish_ok p : pinv p -> P (finish p).
Proof.
  intros [A B]. unfold finish.
  set (h1 := html p ++ _). assert (P h1).
  { apply (t_app _ _ T); [auto|]. destruct (in_paragraph p); fx. }
  clearbody h1. set (h2 := h1 ++ _). assert (P h2).
  { apply (t_app _ _ T); [auto|]. apply P_nrep; fx. }
  clearbody h2. set (h3 := h2 ++ _). assert (P h3).
  { apply (t_app _ _ T); [auto|]. destruct (_ || _); fx. }
  clearbody h3. set (h4 := h3 ++ _). assert (P h4).
  { apply (t_app _ _ T); [auto|]. destruct (in_ordered_list p); fx. }
  clearbody h4. set (h5 := if ends_nl h4 then _ else _). assert (P h5).
  { subst h5. destruct (ends_nl h4); [auto|]. apply (t_app _ _ T); [auto | fx]. }
  clearbody h5. set (h6 := if in_code p then _ else _). assert (P h6).
  { subst h6. destruct (in_code p); [|auto]. apply (t_app _ _ T); [|fx].
    destruct (ends_nl h5); [auto|]. apply (t_app _ _ T); [auto | fx]. }
  apply (t_app _ _ T); [auto|]. clear -X T B. unfold refs_html.
  destruct (references p) as [|r rs] eqn:E; [fx|]. rewrite <- E in *. clear E r rs.
  change (P ((lit "<div class=""footnotes"" role=""doc-endnotes"">" ++ [c_nl]
      ++ [c_tab] ++ lit "<ol>" ++ [c_nl])
      ++ flat_map ref_html (references p)
      ++ ([c_tab] ++ lit "</ol>" ++ [c_nl] ++ lit "</div>" ++ [c_nl]))).
  apply (t_app _ _ T); [fx|]. apply (t_app _ _ T); [|fx].
  rewrite flat_map_concat_map. apply P_concat. rewrite Forall_forall in B |- *.
  intros x I. apply in_map_iff in I as ([a b] & <- & I).
  destruct (B _ I) as (? & ? & ?). now apply (t_ref _ _ T).
Qed.

Lemma parse_body_ok ts h : Forall tok ts -> parse_body RENDER PARSE ts = Ret h -> P h.
Proof.
  intros F. unfold parse_body. destruct (parse_loop _ _ ts pinit) as [p| |] eqn:E; cbn [bind]; try easy.
  ri. apply finish_ok. eapply parse_loop_ok; [exact F | | exact E].
  split; cbn; [apply P_nil | constructor].
Qed.
End Body.

Lemma lex_parse_ok f :
  (forall s ig ts, OK s -> lex f s ig = Ret ts -> Forall tok ts) /\
  (forall ts h, Forall tok ts -> parse f ts = Ret h -> P h).
Proof.
  induction f as [|f [IHL IHP]]; [split; easy|].
  split; cbn [lex parse].
  - intros s ig ts H E.
    assert (F : Forall (tok1 OK OK P tok) ts).
    { revert E. apply lex_loop_ok; auto; try apply X.
      - intros r r' a HO S I. eapply (x_infix _ X); [|exact HO].
        eapply infix_trans; [exact I|]. now apply suffix_infix, ssuffix_suffix.
      - intros t HO. constructor. now constructor.
      - intros _. split; [apply P_nil|]. intros s' h H' _. destruct (lex f s' [c_hash]) as [ts'| |] eqn:E; cbn [bind]; try easy.
        apply IHP. eapply IHL; eauto. }
    revert F. apply Forall_impl. now constructor.
  - intros ts h F. apply parse_body_ok; auto.
    intros s h' H'. destruct (lex f s []) as [ts'| |] eqn:E; cbn [bind]; try easy.
    apply IHP. eapply IHL; eauto.
Qed.
Lemma lex_ok f s ig ts : OK s -> lex f s ig = Ret ts -> Forall tok ts.
Proof. apply lex_parse_ok. Qed.
Lemma render_ignore_ok f s ig h : OK s -> render_ignore f s ig = Ret h -> P h.
Proof.
  intros H. unfold render_ignore. destruct (lex f s ig) as [ts| |] eqn:E; cbn [bind]; try easy.
  apply lex_parse_ok. eapply lex_ok; eauto.
Qed.
Lemma renders_ok s h : OK s -> renders s h -> P h.
Proof. intros H [f E]. eapply render_ignore_ok; eauto. Qed.
End Master.
