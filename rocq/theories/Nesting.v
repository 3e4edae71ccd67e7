(** * Nesting: elements are closed in the order they were opened (C63). *)
From Coq Require Import Ascii String.
From Verif Require Import Strings StringsFacts Token Iter Lexer Parser SanitizeFacts LexerFacts
  LexMono Master Html HtmlFacts LinkFacts Safety SafeClasses Balance.
Open Scope list_scope.

(** ** The stack *)
Lemma take_name m d z : forallb name_char m = true -> name_end d = true -> take_while name_char (m ++ d :: z) = m.
Proof.
  intros F D. induction m as [|x m IH]; cbn [app take_while].
  - now rewrite (name_end_not d D).
  - cbn [forallb] in F. apply andb_true_iff in F as [F1 F2]. rewrite F1. f_equal. auto.
Qed.
Definition andthen (o : option (list str)) (h : str) : option (list str) :=
  match o with Some st => nest st h | None => None end.
Lemma nest_app a b : whole a = true -> forall st, nest st (a ++ b) = andthen (nest st a) b.
Proof.
  induction a as [|c a IH]; intros W st; [reflexivity|]. cbn [whole] in W. apply andb_true_iff in W as [W1 W2].
  cbn [app nest]. destruct (ceq c c_lt); [|now apply IH].
  apply ended_split in W1 as (m & d & z & -> & F & D).
  rewrite <- app_assoc. cbn [app]. rewrite !take_name by assumption.
  destruct (tag_step st m); [|reflexivity]. rewrite <- IH by exact W2. now rewrite <- app_assoc.
Qed.
Lemma nest_text s : ~ In c_lt s -> forall st, nest st s = Some st.
Proof.
  induction s as [|c s IH]; intros Nd st; [reflexivity|]. cbn [nest].
  assert (ceq c c_lt = false) as -> by (apply ceq_neq; intros ->; apply Nd; now left).
  apply IH. intros I. apply Nd. now right.
Qed.
Lemma untab_name m d z : forallb name_char m = true -> name_end d = true ->
  untab (m ++ d :: z) = m ++ d :: untab z.
Proof.
  intros F D. rewrite untab_app, untab_cons. assert (ceq d c_tab = false) as ->.
  { destruct (ceq d c_tab) eqn:E; [|reflexivity]. apply ceq_eq in E as ->. discriminate. }
  f_equal. clear -F. induction m as [|x m IH]; [reflexivity|]. cbn [forallb] in F.
  apply andb_true_iff in F as [F1 F2]. rewrite untab_cons, (IH F2).
  destruct (ceq x c_tab) eqn:E; [apply ceq_eq in E as ->; discriminate | reflexivity].
Qed.
Lemma nest_untab s : whole s = true -> forall st, nest st (untab s) = nest st s.
Proof.
  induction s as [|c s IH]; intros W st; [reflexivity|]. cbn [whole] in W. apply andb_true_iff in W as [W1 W2].
  rewrite untab_cons. destruct (ceq c c_tab) eqn:E.
  - apply ceq_eq in E as ->. exact (IH W2 st).
  - cbn [app nest]. destruct (ceq c c_lt); [|now apply IH].
    destruct (ended_split _ W1) as (m & d & z & E1 & F & D).
    assert (T : take_while name_char (untab s) = take_while name_char s).
    { rewrite E1, untab_name by assumption. now rewrite !take_name. }
    rewrite T. destruct (tag_step _ _); [now apply IH | reflexivity].
Qed.

(** What is further down the stack does not matter if nothing is missing. *)
Lemma nest_under h : forall k k' st, nest k h = Some k' -> nest (k ++ st) h = Some (k' ++ st).
Proof.
  induction h as [|c h IH]; intros k k' st; cbn [nest]; [intros E; injection E as ->; reflexivity|].
  destruct (ceq c c_lt); [|apply IH].
  destruct (tag_step k _) as [k1|] eqn:E; [|discriminate]. intros H. apply (IH _ _ st) in H.
  enough (tag_step (k ++ st) (take_while name_char h) = Some (k1 ++ st)) as -> by exact H.
  revert E. unfold tag_step. destruct (take_while name_char h) as [|d m]; [intros E; injection E as ->; reflexivity|].
  destruct (ceq d 47%N).
  - destruct k as [|x k]; [discriminate|]. cbn [app]. destruct (str_eqb x m); [|discriminate].
    intros E; injection E as ->; reflexivity.
  - destruct (existsb _ voids); intros E; injection E as <-; reflexivity.
Qed.

(** ** Complete pieces *)
Definition Nd (h : str) : Prop := whole h = true /\ shut false h = true /\ forall st, nest st h = Some st.

Lemma N_nil : Nd []. Proof. repeat split. Qed.
Lemma N_nested h : Nd h -> nested h.
Proof. intros (_ & _ & H). apply H. Qed.
Lemma N_app a b : Nd a -> Nd b -> Nd (a ++ b).
Proof.
  intros (WA & SA & NA) (WB & SB & NB). split; [now apply whole_app|]. split; [now apply shut_app|].
  intros st. rewrite nest_app, NA by exact WA. apply NB.
Qed.
Lemma N_text s : ~ In c_lt s -> Nd s.
Proof.
  intros H. split; [now apply whole_text|]. split; [|now apply nest_text].
  rewrite <- (app_nil_r s). now apply shut_text.
Qed.
Lemma N_san s : Nd (sanitize s).
Proof. apply N_text, sanitize_no_lt. Qed.
Lemma N_concat l : Forall Nd l -> Nd (concat l).
Proof. induction 1; cbn [concat]; [apply N_nil | now apply N_app]. Qed.
Lemma N_untab s : Nd s -> Nd (untab s).
Proof.
  intros (W & S_ & H). split; [now apply whole_untab|]. split; [now rewrite shut_untab|].
  intros st. now rewrite nest_untab.
Qed.
(** What is opened by [a] is closed by [b]. *)
Definition pair (a b : str) : Prop := whole a = true /\ whole b = true /\ shut false a = true /\ shut false b = true /\
  forall st, exists st', nest st a = Some st' /\ nest st' b = Some st.
Lemma N_pair a s b : pair a b -> Nd s -> Nd (a ++ s ++ b).
Proof.
  intros (WA & WB & SA & SB & H) (WS & SS & HS).
  split; [repeat apply whole_app; auto|]. split; [repeat apply shut_app; auto|].
  intros st. destruct (H st) as (st' & H1 & H2).
  rewrite nest_app, H1 by exact WA. cbn [andthen]. rewrite nest_app, HS by exact WS. exact H2.
Qed.
Ltac lits := repeat split; eexists; split; reflexivity.
Lemma N_skip a s b : whole a = true -> ~ In c_lt s -> whole b = true -> Nd (a ++ b) -> Nd (a ++ s ++ b).
Proof.
  intros W L WB (_ & S_ & H). split; [|split; [now apply shut_skip|]].
  - repeat apply whole_app; auto. now apply whole_text.
  - intros st. specialize (H st). rewrite nest_app in H |- * by exact W. destruct (nest st a) as [st'|]; [|exact H].
    cbn [andthen] in *. rewrite nest_app, nest_text by (auto; now apply whole_text). exact H.
Qed.
Lemma N_trim h : Nd h -> Nd (trim h).
Proof.
  intros (W & S_ & H). unfold trim, trim_end, trim_start_by.
  assert (NW : forall s, forallb is_whitespace s = true -> ~ In c_lt s).
  { intros s F I. apply (proj1 (forallb_forall _ _) F) in I. discriminate. }
  assert (H1 : Nd (drop_while is_whitespace h)).
  { rewrite <- (take_drop is_whitespace h) in W, S_, H. split; [now apply whole_after in W|]. split.
    - rewrite shut_blank in S_; [exact S_|]. apply forallb_forall, take_while_forall.
    - intros st. specialize (H st). rewrite nest_app in H by (apply whole_text, NW, take_while_forall).
      rewrite nest_text in H by (apply NW, take_while_forall). exact H. }
  revert H1. generalize (drop_while is_whitespace h). clear h W S_ H. intros h H.
  destruct (trim_end_by_spec is_whitespace h) as (w & E1 & F). rewrite E1 in H.
  revert H. generalize (trim_end_by is_whitespace h). intros x (W & S_ & H).
  assert (FW : forall c, In c w -> is_whitespace c = true) by apply forallb_forall, F.
  rewrite shut_blank_end in S_ by exact FW.
  pose proof (whole_blank x w FW S_ W) as W1.
  split; [exact W1|]. split; [exact S_|]. intros st. specialize (H st). rewrite nest_app in H by exact W1.
  destruct (nest st x) as [st'|]; [|discriminate]. cbn [andthen] in H. now rewrite nest_text in H by apply NW, F.
Qed.

(** ** The pieces of the parser *)
Ltac nolt := first [apply sanitize_no_lt | apply dec_no_lt | assumption].
Ltac wholes := repeat match goal with
  | |- whole (_ ++ _) = true => apply whole_app
  | |- whole (lit _) = true => reflexivity
  | |- whole (_ :: _) = true => reflexivity
  | |- _ => apply whole_text; nolt
  end.
Ltac skip := apply N_skip; [reflexivity | nolt | wholes |].

Lemma N_footnote_ref s n : Nd (footnote_ref s n).
Proof.
  unfold footnote_ref. skip. rewrite app_assoc. skip. rewrite app_assoc. skip. repeat split.
Qed.
Lemma N_footnote_pieces ps : (forall p, In p ps -> ~ In c_lt p) -> forall n, Nd (footnote_pieces n ps).
Proof.
  induction ps as [|p ps IH]; intros H n; [apply N_nil|]. cbn [footnote_pieces].
  assert (IHn : forall n, Nd (footnote_pieces n ps)) by (apply IH; intros q I; apply H; now right).
  destruct (ends_with _ _); apply N_app; auto.
  - apply N_footnote_ref.
  - apply N_text. apply H. now left.
Qed.
Lemma N_ref r : Nd (ref_html r).
Proof.
  change (Nd (([c_tab; c_tab] ++ lit "<li id=""fn:1"" role=""doc-endnote"">" ++ [c_tab; c_tab; c_tab] ++ lit "<p>")
    ++ sanitize (snd r) ++ lit "<a href=""#fnref:" ++ sanitize (fst r)
    ++ lit """ class=""reversefootnote"" role=""doc-backlink"">" ++ [8617%N]
    ++ lit "</a></p>" ++ [c_tab; c_tab] ++ lit "</li>")).
  skip. rewrite app_assoc. skip. repeat split.
Qed.
Lemma N_refs rs : Nd (refs_html rs).
Proof.
  unfold refs_html. destruct rs as [|r rs]; [apply N_nil|]. generalize (r :: rs). clear r rs. intros rs.
  change (Nd ((lit "<div class=""footnotes"" role=""doc-endnotes"">" ++ [c_nl] ++ [c_tab] ++ lit "<ol>" ++ [c_nl])
      ++ flat_map ref_html rs
      ++ ([c_tab] ++ lit "</ol>" ++ [c_nl] ++ lit "</div>" ++ [c_nl]))).
  apply N_pair; [lits|]. rewrite flat_map_concat_map. apply N_concat. apply Forall_forall.
  intros x I. apply in_map_iff in I as (a & <- & _). apply N_ref.
Qed.
Lemma N_header n t : 1 <= n <= 6 -> Nd t -> Nd (header_html n t None).
Proof.
  intros L H. unfold header_html.
  change (lit "<h" ++ dec n ++ lit ">" ++ t ++ lit "</h" ++ dec n ++ lit ">" ++ [c_nl])
    with (lit "<h" ++ dec n ++ (lit ">" ++ (t ++ (lit "</h" ++ dec n ++ lit ">" ++ [c_nl])))).
  rewrite (app_assoc (dec n)), (app_assoc (lit "<h")).
  apply N_pair; [|exact H]. destruct n as [|[|[|[|[|[|[|n]]]]]]]; try lia; lits.
Qed.
Lemma N_th h : Nd (th_html h).
Proof.
  unfold th_html. destruct h as [a t]. cbn [fst snd].
  change (Nd ([c_tab; c_tab] ++ (lit "<th style=""text-align: " ++ fmt_alignment a ++ lit """>" ++ (sanitize t ++ lit "</th>")))).
  rewrite (app_assoc (fmt_alignment a)), (app_assoc (lit "<th style=""text-align: ")), (app_assoc [c_tab; c_tab]).
  apply N_pair; [destruct a; lits | apply N_san].
Qed.
Lemma N_td a h : Nd h -> Nd (td_html a h).
Proof.
  intros H. unfold td_html.
  rewrite (app_assoc (fmt_alignment a)), (app_assoc (lit "<td style=""text-align: ")), (app_assoc [c_nl; c_tab; c_tab]).
  apply N_pair; [destruct a; lits | exact H].
Qed.

(** A heading takes the text of its line out of the paragraph: that must be all
    there is. *)
Definition lone (h : str) : Prop := forall x, h = lit "<p>" ++ x ++ lit "</p>" ++ [c_nl] -> Nd x.
Lemma N_unwrap h : lone h -> Nd (heading_unwrap h).
Proof.
  intros H. unfold heading_unwrap. apply N_trim.
  destruct (strip_prefix _ h) as [r|] eqn:E1; [|apply N_nil]. cbn [or_empty].
  apply strip_prefix_iff in E1.
  destruct (strip_suffix _ r) as [x|] eqn:E2; [|apply N_nil]. cbn [or_empty].
  apply strip_suffix_iff in E2. apply H. now rewrite E1, E2.
Qed.

(** ** The loop *)
Section Class.
Variables (OK QOK : str -> Prop).
Hypothesis O_infix : forall a s, infix a s -> OK s -> OK a.
Hypothesis O_eof : OK (lit "EOF").
Hypothesis O_nonlink : OK (lit "Non link token returned from lex_links").
Hypothesis O_lt : forall s, OK s -> ~ In c_lt s.
Hypothesis O_bullet : ~ seen_bullet OK.
Hypothesis O_number : ~ seen_number OK.
Hypothesis O_code : ~ seen_code OK.
Hypothesis O_quote : seen OK c_gt -> forall s, OK s -> QOK (sanitize s).
Hypothesis O_head : seen OK c_hash -> ~ seen OK c_gt /\ ~ (seen OK c_bang /\ seen OK c_lbrk).

Lemma no_lt_seen : ~ seen OK c_lt.
Proof. intros (r & O & I). now apply (O_lt r). Qed.
Lemma from_lt pre t u h : link_at OK pre t u h -> ~ In c_lt (url_content u) /\ ~ In c_lt (fmt_url u).
Proof.
  intros (src & c & e & V & _ & _ & O).
  assert (L : ~ In c_lt src).
  { intros J. apply (O_lt _ O), in_or_app. right. right. apply in_or_app. right. apply in_or_app. right. apply in_or_app. now left. }
  split; intros I.
  - apply L. eapply content_in; eauto.
  - apply (fmt_url_in _ _ _ V) in I as [I|I]; [auto|]. revert I. vm_compute. intuition discriminate.
Qed.
Lemma N_plaintext s : OK s -> Nd (plaintext_html s).
Proof.
  intros O. unfold plaintext_html.
  assert (O' : OK (drop_blank_tail s)) by (eapply O_infix; [apply drop_blank_tail_infix | exact O]).
  destruct (contains [c_lbrk; c_caret] _ && _) eqn:C; [|apply N_san].
  apply N_footnote_pieces. intros p I J. apply (O_lt _ O'). eapply infix_In; [|exact J].
  eapply split_infix; exact I.
Qed.
Lemma N_image u t : (exists h, link_at OK [c_bang] t u h) -> Nd (image_html (url_content u) (Some t)).
Proof.
  intros [h F]. destruct (from_lt _ _ _ _ F) as [C _]. unfold image_html. destruct (is_empty _).
  - skip. repeat split.
  - skip. rewrite app_assoc. skip. repeat split.
Qed.
Lemma N_link u t h : link_at OK [] t u h -> opt_ok OK h -> Nd (link_html u (Some t) h).
Proof.
  intros F O. destruct (from_lt _ _ _ _ F) as [_ C]. unfold link_html. destruct h as [h|].
  - pose proof (O_lt h O) as L. skip. rewrite app_assoc. skip. rewrite app_assoc. skip. repeat split.
  - skip. rewrite app_assoc. skip. repeat split.
Qed.

(** What a heading may take. *)
Definition PH (h : str) : Prop := seen OK c_hash -> lone h.
Local Notation tok := (tok_ok OK PH).

Section Body.
Variable RENDER : str -> res str.
Variable PARSE : list token -> res str.
Hypothesis HR : forall s h, QOK s -> RENDER s = Ret h -> Nd h.
Hypothesis HP : forall ts h, Forall tok ts -> PARSE ts = Ret h -> Nd h.

Lemma cell_token_N c t h : Forall tok c -> tok t -> cell_token PARSE c t = Ret h -> Nd h.
Proof.
  intros HE [x H]. inversion H; subst; cbn [cell_token];
    first [ apply HP; assumption
          | ri; first [apply N_san | apply N_pair; [lits | apply N_san] | repeat split] ].
Qed.
Lemma table_N hs rows h :
  Forall (Forall (fun c => Forall tok (snd c))) rows -> table_html PARSE hs rows = Ret h -> Nd h.
Proof.
  intros HR'. unfold table_html.
  destruct (mapM _ rows) as [rs| |] eqn:M; cbn [bind]; try easy.
  assert (C : Nd (concat rs)).
  { apply N_concat. revert M. apply mapM_ok. intros row h' I.
    rewrite Forall_forall in HR'. specialize (HR' _ I). unfold row_html.
    destruct (mapM _ row) as [cs| |] eqn:M; cbn [bind]; try easy. ri.
    change (Nd (([c_nl; c_tab] ++ lit "<tr>") ++ concat cs ++ ([c_nl; c_tab] ++ lit "</tr>"))).
    apply N_pair; [lits|].
    apply N_concat. revert M. apply mapM_ok. intros c h'' I'.
    rewrite Forall_forall in HR'. specialize (HR' _ I'). unfold cell_html.
    destruct (mapM _ (snd c)) as [ps| |] eqn:M; cbn [bind]; try easy. ri.
    apply N_td, N_concat. revert M. apply mapM_ok. intros t x I''.
    apply cell_token_N; auto. rewrite Forall_forall in HR'. auto. }
  ri.
  assert (H : Nd (flat_map th_html hs)).
  { rewrite flat_map_concat_map. apply N_concat. apply Forall_forall.
    intros x I. apply in_map_iff in I as (a & <- & _). apply N_th. }
  revert C H. generalize (concat rs) (flat_map th_html hs). intros body head HB HH.
  change (Nd ((lit "<table class=""table table-bordered"">" ++ [c_nl; c_tab])
     ++ ((lit "<thead>" ++ [c_nl; c_tab] ++ lit "<tr>" ++ [c_nl]) ++ head ++ ([c_tab] ++ lit "</tr>" ++ [c_nl; c_tab] ++ lit "</thead>"
          ++ [c_nl; c_tab] ++ lit "<tbody>" ++ body
         ++ [c_nl; c_tab] ++ lit "</tbody>" ++ [c_nl] ++ lit "</table>")))).
  assert (G : forall a b c d e : str, a ++ b ++ c ++ d ++ e = (a ++ (b ++ c) ++ d) ++ e) by (intros; rewrite <- !app_assoc; reflexivity).
  replace ((lit "<thead>" ++ [c_nl; c_tab] ++ lit "<tr>" ++ [c_nl]) ++ head ++ ([c_tab] ++ lit "</tr>" ++ [c_nl; c_tab] ++ lit "</thead>"
          ++ [c_nl; c_tab] ++ lit "<tbody>" ++ body
         ++ [c_nl; c_tab] ++ lit "</tbody>" ++ [c_nl] ++ lit "</table>"))
   with ((((lit "<thead>" ++ [c_nl; c_tab] ++ lit "<tr>" ++ [c_nl]) ++ head ++ ([c_tab] ++ lit "</tr>" ++ [c_nl; c_tab] ++ lit "</thead>"))
     ++ (([c_nl; c_tab] ++ lit "<tbody>") ++ body ++ ([c_nl; c_tab] ++ lit "</tbody>")))
     ++ ([c_nl] ++ lit "</table>")) by (rewrite <- !app_assoc; reflexivity).
  apply N_pair; [lits|]. apply N_app; (apply N_pair; [lits | assumption]).
Qed.

(** The open elements are a paragraph or block quotes. *)
Definition open (p : pstate) : list str :=
  if in_paragraph p then [lit "p"] else repeat (lit "blockquote") (quote_level p).
Definition quiet (p : pstate) : Prop :=
  in_ordered_list p = false /\ in_unordered_list p = false /\ in_task_list p = false /\ in_code p = false /\
  (in_paragraph p = true -> quote_level p = 0).
Definition inv (p : pstate) : Prop :=
  quiet p /\ whole (html p) = true /\ shut false (html p) = true /\ nest [] (html p) = Some (open p).

Lemma inv_push s p : Nd s -> inv p -> inv (push s p).
Proof.
  intros (WS & SS & HS) (Q & W & S_ & H). split; [exact Q|]. cbn [html push].
  split; [now apply whole_app|]. split; [now apply shut_app|]. rewrite nest_app, H by exact W. apply HS.
Qed.
Lemma inv_step s p p' : inv p -> html p' = html p ++ s -> quiet p' -> whole s = true -> shut false s = true ->
  nest (open p) s = Some (open p') -> inv p'.
Proof.
  intros (Q & W & S_ & H) E Q' WS SS HS. split; [exact Q'|]. rewrite E.
  split; [now apply whole_app|]. split; [now apply shut_app|]. rewrite nest_app, H by exact W. exact HS.
Qed.
Lemma nest_close s n k : nest (lit "blockquote" :: k) s = Some k -> whole s = true ->
  (forall k, nest (lit "blockquote" :: k) s = Some k) ->
  nest (repeat (lit "blockquote") n ++ k) (nrep n s) = Some k.
Proof.
  intros _ W H. induction n as [|n IH]; [reflexivity|]. cbn [repeat nrep app]. rewrite nest_app, H by exact W. exact IH.
Qed.
Lemma nest_open n k : nest k (nrep n (lit "<blockquote>" ++ [c_nl])) = Some (repeat (lit "blockquote") n ++ k).
Proof.
  revert k; induction n as [|n IH]; intros k; [reflexivity|]. cbn [nrep]. rewrite nest_app by reflexivity.
  change (nest k (lit "<blockquote>" ++ [c_nl])) with (Some (lit "blockquote" :: k)). cbn [andthen]. rewrite IH. f_equal.
  change (repeat (lit "blockquote") n ++ [lit "blockquote"] ++ k = [lit "blockquote"] ++ repeat (lit "blockquote") n ++ k).
  rewrite !app_assoc. f_equal. change [lit "blockquote"] with (repeat (lit "blockquote") 1). rewrite <- !repeat_app. f_equal. lia.
Qed.
Lemma inv_open_p p : inv p -> in_paragraph p = false ->
  inv (push (lit "<p>") (set_par true (set_quote 0 (push (nrep (quote_level p) (lit "</blockquote>")) p)))).
Proof.
  intros I F. apply (inv_step (nrep (quote_level p) (lit "</blockquote>") ++ lit "<p>") p); auto.
  - cbn [html push set_par set_quote]. now rewrite app_assoc.
  - destruct I as ((Q1 & Q2 & Q3 & Q4 & _) & _). repeat split; auto.
  - apply whole_app; [now apply whole_nrep | reflexivity].
  - apply shut_app; [now apply shut_nrep | reflexivity].
  - unfold open. rewrite F. cbn [in_paragraph push set_par]. rewrite nest_app by now apply whole_nrep.
    pose proof (nest_close (lit "</blockquote>") (quote_level p) [] eq_refl eq_refl (fun _ => eq_refl)) as C.
    rewrite app_nil_r in C. rewrite C. reflexivity.
Qed.
Lemma inv_close_p s p : inv p -> in_paragraph p = true -> s = lit "</p>" \/ s = lit "</p>" ++ [c_nl] ->
  inv (push s (set_par false p)).
Proof.
  intros I F E. destruct I as ((Q1 & Q2 & Q3 & Q4 & Q5) & R). apply (inv_step s p); auto.
  - split; [repeat split; auto | exact R].
  - repeat split; auto; try discriminate.
  - destruct E as [-> | ->]; reflexivity.
  - destruct E as [-> | ->]; reflexivity.
  - unfold open. rewrite F. cbn [in_paragraph quote_level push set_par]. rewrite (Q5 F).
    destruct E as [-> | ->]; reflexivity.
Qed.
Lemma inv_quote n p : inv p -> in_paragraph p = false -> inv (set_quote n (push (quote_move (quote_level p) n) p)).
Proof.
  intros I F. apply (inv_step (quote_move (quote_level p) n) p); auto.
  - destruct I as ((Q1 & Q2 & Q3 & Q4 & _) & _). repeat split; auto. cbn. congruence.
  - unfold quote_move. destruct (_ =? _); [reflexivity|]. destruct (_ <? _); now apply whole_nrep.
  - unfold quote_move. destruct (_ =? _); [reflexivity|]. destruct (_ <? _); now apply shut_nrep.
  - unfold open. cbn [in_paragraph quote_level push set_quote]. rewrite F. unfold quote_move.
    destruct (n =? quote_level p) eqn:E1. { apply Nat.eqb_eq in E1. now rewrite E1. }
    apply Nat.eqb_neq in E1. destruct (n <? quote_level p) eqn:E2.
    + apply Nat.ltb_lt in E2. replace (quote_level p) with ((quote_level p - n) + n) at 1 by lia.
      rewrite repeat_app. now apply nest_close.
    + apply Nat.ltb_ge in E2. rewrite nest_open, <- repeat_app. do 2 f_equal. lia.
Qed.

(** The first match, when no list and no code is open. *)
Definition simple_pre (t : token) (p : pstate) : pstate :=
  if match t with Plaintext x => is_blank x | _ => false end then p
  else if is_inline t && negb (in_paragraph p)
  then push (lit "<p>") (set_par true (set_quote 0 (push (nrep (quote_level p) (lit "</blockquote>")) p)))
  else if is_par_closer t && in_paragraph p then push (lit "</p>" ++ [c_nl]) (set_par false p)
  else p.
Lemma pre_simple t p : quiet p -> (forall x, t <> Code x) -> pre t p = simple_pre t p.
Proof.
  intros (Q1 & Q2 & Q3 & Q4 & _) NC. unfold simple_pre. destruct t; cbn [pre is_inline is_par_closer andb];
    try rewrite Q1; try rewrite Q2; try rewrite Q3; cbn [is_list_or_newline is_task_or_newline is_inline is_par_closer is_quote_or_newline andb orb];
    try reflexivity.
  all: try (exfalso; eapply NC; reflexivity).
  all: try (destruct (is_blank _); [reflexivity|]).
  all: destruct (in_paragraph p); cbn [negb andb]; try reflexivity; destruct (quote_level p =? 0); reflexivity.
Qed.

Lemma inv_simple t p : inv p -> inv (simple_pre t p).
Proof.
  intros I. unfold simple_pre. destruct (match t with Plaintext x => _ | _ => _ end); [exact I|].
  destruct (_ && _) eqn:E1.
  { apply andb_true_iff in E1 as [_ E1]. apply negb_true_iff in E1. now apply inv_open_p. }
  destruct (is_par_closer t && in_paragraph p) eqn:E2; [|exact I].
  apply andb_true_iff in E2 as [_ E2]. apply inv_close_p; auto.
Qed.

(** One token; [L]: the texts of the line or document at hand. *)
Variable L : str -> Prop.
Hypothesis L_ok : forall s, L s -> OK s.
Lemma seen_ok c : seen L c -> seen OK c.
Proof. intros (r & O & I). exists r. auto. Qed.
Lemma from_ok pre t u h : link_at L pre t u h -> link_at OK pre t u h.
Proof. intros (r & c & e & V & N1 & N2 & O). exists r, c, e. auto. Qed.
Lemma no_bullet : ~ seen_bullet L.
Proof. intros (r & O & I). apply O_bullet. exists r. auto. Qed.
Lemma no_number : ~ seen_number L.
Proof. intros (r & d & O & I). apply O_number. exists r, d. auto. Qed.
Lemma no_code : ~ seen_code L.
Proof. intros (r & O & I). apply O_code. exists r. auto. Qed.
Lemma opt_sub h : opt_ok L h -> opt_ok OK h.
Proof. destruct h; cbn; auto. Qed.

Variable PL : str -> Prop.
Hypothesis PL_ok : forall h, PL h -> PH h.
Local Notation tokl := (tok1 L L PL tok).

Lemma not_code_tok t : tokl t -> forall x, t <> Code x.
Proof. intros H x ->. inversion H; subst; now apply no_code. Qed.

Lemma inv_body t p p' : tokl t -> inv (simple_pre t p) -> body RENDER PARSE t (simple_pre t p) = Ret p' -> inv p'.
Proof.
  intros H. set (q := simple_pre t p). clearbody q. clear p. rename q into p. intros I.
  inversion H; subst; cbn [body]; try (exfalso; now apply no_bullet); try (exfalso; now apply no_number);
    try (exfalso; now apply no_code); try (exfalso; apply no_lt_seen; now apply seen_ok).
  - ri. destruct (is_blank t0); [exact I|]. apply inv_push; [|exact I]. apply N_plaintext. auto.
  - ri. apply inv_push; [|exact I]. apply N_header; [auto|].
    match goal with H : heading_text _ _ |- _ => destruct H as [->|(h & Ph & ->)] end; [apply N_nil|].
    apply N_unwrap. apply PL_ok in Ph. apply Ph. now apply seen_ok.
  - ri. apply inv_push; [apply N_pair; [lits | apply N_san] | exact I].
  - ri. apply inv_push; [apply N_pair; [lits | apply N_san] | exact I].
  - ri. apply inv_push; [apply N_pair; [lits | apply N_san] | exact I].
  - ri. exact I.
  - ri. exact I.
  - ri. apply inv_push; [repeat split | exact I].
  - ri. apply inv_push; [apply N_pair; [lits | apply N_san] | exact I].
  - set (p1 := if in_paragraph p then _ else p).
    assert (I1 : inv p1 /\ in_paragraph p1 = false).
    { subst p1. destruct (in_paragraph p) eqn:F; [|auto]. split; [|reflexivity].
      apply (inv_close_p (lit "</p>") p); auto. }
    clearbody p1. destruct I1 as [I1 F1]. pose proof (inv_quote n p1 I1 F1) as I2.
    destruct (is_empty t0). { ri. exact I2. }
    destruct (RENDER _) as [h| |] eqn:R; cbn [bind]; try easy. ri.
    apply inv_push; [|exact I2]. apply N_untab. eapply HR; [|exact R].
    apply O_quote; [now apply seen_ok|]. eapply O_infix; [apply infix_trim_start_by | auto].
  - ri. apply inv_push; [|exact I]. apply N_image. match goal with H : exists h, _ |- _ => destruct H as [h W]; exists h; now apply from_ok end.
  - ri. apply inv_push; [|exact I]. apply N_link; [now apply from_ok | now apply opt_sub].
  - destruct (row0_len rows); [|easy]. destruct (negb _). { ri. exact I. }
    destruct (table_html _ _ _) as [h| |] eqn:F; cbn [bind]; try easy. ri.
    apply inv_push; [|exact I]. eapply table_N; eauto.
  - ri. exact I.
Qed.
Lemma inv_loop ts p p' : Forall tokl ts -> inv p -> parse_loop RENDER PARSE ts p = Ret p' -> inv p'.
Proof.
  revert p; induction ts as [|t ts IH]; intros p F I; cbn [parse_loop].
  - ri. exact I.
  - inversion F; subst. rewrite pre_simple by (apply I || now apply not_code_tok).
    destruct (body _ _ t _) as [p1| |] eqn:Bd; cbn [bind]; try easy.
    apply IH; [auto|]. eapply inv_body; [eassumption | | exact Bd]. now apply inv_simple.
Qed.
Definition ending (p : pstate) : str :=
  if in_paragraph p then lit "</p>" ++ [c_nl] else nrep (quote_level p) (lit "</blockquote>" ++ [c_nl]).
Lemma finish_quiet p : quiet p -> finish p =
  (if ends_nl (html p ++ ending p) then html p ++ ending p else (html p ++ ending p) ++ [c_nl]) ++ refs_html (references p).
Proof.
  intros (Q1 & Q2 & Q3 & Q4 & Q5). unfold finish, ending. rewrite Q1, Q2, Q3, Q4. cbn [orb].
  destruct (in_paragraph p) eqn:F.
  - rewrite (Q5 eq_refl). cbn [nrep]. now rewrite !app_nil_r.
  - now rewrite !app_nil_r.
Qed.
Lemma N_finish p : inv p -> Nd (finish p).
Proof.
  intros (Q & W & S_ & H). rewrite finish_quiet by exact Q. apply N_app; [|apply N_refs].
  assert (E : Nd (html p ++ ending p)).
  { unfold ending, open in *. split; [|split].
    - apply whole_app; [exact W|]. destruct (in_paragraph p); [reflexivity | now apply whole_nrep].
    - apply shut_app; [exact S_|]. destruct (in_paragraph p); [reflexivity | now apply shut_nrep].
    - intros st. rewrite nest_app by exact W. apply (nest_under _ _ _ st) in H. cbn [app] in H. rewrite H.
      cbn [andthen]. destruct (in_paragraph p); [reflexivity|]. now apply nest_close. }
  destruct (ends_nl _); [exact E|]. apply N_app; [exact E | repeat split].
Qed.

(** ** The line of a heading: the paragraph, once open, stays open *)
Section Line.
Hypothesis heading : seen OK c_hash.
Hypothesis L_nl : ~ seen L c_nl.
Hypothesis PL_no : ~ PL [].

Definition notp (a : str) : Prop := a = [] \/ forall z, starts_with (lit "<p>") (a ++ z) = false.
Lemma notp_app a b : notp a -> notp b -> notp (a ++ b).
Proof.
  intros [->|A] B; [exact B|]. right. intros z. rewrite <- app_assoc. apply A.
Qed.
Definition hinv (p : pstate) : Prop :=
  inv p /\ quote_level p = 0 /\
  if in_paragraph p then exists a r, html p = a ++ lit "<p>" ++ r /\ notp a /\ Nd r else notp (html p).

Lemma hinv_push s p : Nd s -> notp s \/ in_paragraph p = true -> hinv p -> hinv (push s p).
Proof.
  intros H C (I & Q & R). split; [now apply inv_push|]. split; [exact Q|].
  cbn [in_paragraph html push]. destruct (in_paragraph p).
  - destruct R as (a & r & E & A & Nr). exists a, (r ++ s). rewrite E, <- !app_assoc. repeat split; auto; now apply N_app.
  - destruct C as [C|C]; [|discriminate]. now apply notp_app.
Qed.
Lemma hinv_simple t p : is_par_closer t = false -> hinv p -> hinv (simple_pre t p) /\
  (is_inline t = true -> (forall x, t = Plaintext x -> is_blank x = false) -> in_paragraph (simple_pre t p) = true).
Proof.
  intros C H. unfold simple_pre. rewrite C. cbn [andb].
  destruct (match t with Plaintext x => _ | _ => _ end) eqn:B.
  { split; [exact H|]. intros _ K. destruct t; try discriminate. specialize (K _ eq_refl). congruence. }
  destruct (is_inline t && negb (in_paragraph p)) eqn:E.
  - split; [|reflexivity]. apply andb_true_iff in E as [_ E]. apply negb_true_iff in E. destruct H as (I & Q & R).
    rewrite E in R. split; [now apply inv_open_p|]. split; [reflexivity|]. cbn [in_paragraph push set_par html set_quote].
    rewrite Q. cbn [nrep]. exists (html p), []. rewrite !app_nil_r. repeat split; auto.
  - split; [exact H|]. intros F _. rewrite F in E. cbn [andb] in E. now apply negb_false_iff in E.
Qed.

Lemma notp_table hs rows h : table_html PARSE hs rows = Ret h -> notp h.
Proof.
  unfold table_html. destruct (mapM _ rows) as [rs| |]; cbn [bind]; try easy. ri. right. intros z. reflexivity.
Qed.

Lemma hinv_body t p p' : tokl t -> hinv p -> body RENDER PARSE t (simple_pre t p) = Ret p' -> hinv p'.
Proof.
  intros H I. destruct (O_head heading) as [NG NI].
  assert (C : is_par_closer t = false).
  { inversion H; subst; try reflexivity; exfalso; auto. now apply no_code. }
  destruct (hinv_simple t p C I) as [I1 J]. clear I C. set (q := simple_pre t p) in *. clearbody q.
  clear p. rename q into p. rename I1 into I.
  inversion H; subst; cbn [body is_inline] in *; try (exfalso; now apply no_bullet); try (exfalso; now apply no_number);
    try (exfalso; now apply no_code); try (exfalso; apply no_lt_seen; now apply seen_ok);
    try (exfalso; auto; fail); try (exfalso; apply NG; now apply seen_ok);
    try (exfalso; apply NI; split; now apply seen_ok).
  - ri. destruct (is_blank t0) eqn:E; [exact I|]. apply hinv_push; [apply N_plaintext; auto | | exact I].
    right. apply J; [reflexivity|]. now intros x [= <-].
  - ri. apply hinv_push; [apply N_pair; [lits | apply N_san] | right; apply J; easy | exact I].
  - ri. apply hinv_push; [apply N_pair; [lits | apply N_san] | right; apply J; easy | exact I].
  - ri. apply hinv_push; [apply N_pair; [lits | apply N_san] | right; apply J; easy | exact I].
  - ri. exact I.
  - ri. apply hinv_push; [repeat split | left; right; reflexivity | exact I].
  - ri. apply hinv_push; [apply N_pair; [lits | apply N_san] | right; apply J; easy | exact I].
  - ri. apply hinv_push; [|right; apply J; easy | exact I]. apply N_link; [now apply from_ok | now apply opt_sub].
  - destruct (row0_len rows); [|easy]. destruct (negb _). { ri. exact I. }
    destruct (table_html _ _ _) as [h| |] eqn:F; cbn [bind]; try easy. ri.
    apply hinv_push; [eapply table_N; eauto | left; eapply notp_table; eauto | exact I].
  - ri. exact I.
Qed.
Lemma hinv_loop ts p p' : Forall tokl ts -> hinv p -> parse_loop RENDER PARSE ts p = Ret p' -> hinv p'.
Proof.
  revert p; induction ts as [|t ts IH]; intros p F I; cbn [parse_loop].
  - ri. exact I.
  - inversion F; subst. rewrite pre_simple by (apply I || now apply not_code_tok).
    destruct (body _ _ t _) as [p1| |] eqn:Bd; cbn [bind]; try easy.
    apply IH; [auto|]. eapply hinv_body; eassumption.
Qed.

Lemma refs_end rs : rs <> [] -> exists z, refs_html rs = z ++ lit "div>" ++ [c_nl].
Proof.
  intros NE. unfold refs_html. destruct rs as [|r rs]; [easy|]. set (k := flat_map ref_html _). clearbody k.
  exists (lit "<div class=""footnotes"" role=""doc-endnotes"">" ++ [c_nl] ++ [c_tab] ++ lit "<ol>" ++ [c_nl] ++ k
    ++ [c_tab] ++ lit "</ol>" ++ [c_nl] ++ lit "</"). now rewrite <- !app_assoc.
Qed.
Lemma app_tail_eq {A} (a b c d : list A) : length c = length d -> a ++ c = b ++ d -> a = b /\ c = d.
Proof.
  intros Len E. assert (La : length a = length b).
  { apply (f_equal (@length A)) in E. rewrite !app_length in E. lia. }
  clear Len. revert b La E; induction a as [|x a IH]; intros [|y b] La E; try discriminate; [now split|].
  cbn [app] in E. injection E as -> E. injection La as La. destruct (IH b La E) as [-> ->]. now split.
Qed.
Lemma lone_finish p : hinv p -> lone (finish p).
Proof.
  intros (I & Q & R) x E. rewrite finish_quiet in E by apply I. unfold ending in E. destruct (in_paragraph p).
  - destruct R as (a & r & H & A & Nr). rewrite H in E.
    assert (EN : forall u, ends_nl (u ++ lit "</p>" ++ [c_nl]) = true).
    { intros u. unfold ends_nl. apply ends_with_iff. exists (u ++ lit "</p>"). now rewrite <- app_assoc. }
    rewrite EN in E. destruct A as [->|A].
    2:{ exfalso. rewrite <- !app_assoc in E. specialize (A (lit "<p>" ++ r ++ lit "</p>" ++ [c_nl] ++ refs_html (references p))).
        assert (T : starts_with (lit "<p>") (lit "<p>" ++ x ++ lit "</p>" ++ [c_nl]) = true) by reflexivity.
        rewrite <- E in T. congruence. }
    cbn [app] in E. rewrite <- (app_assoc (lit "<p>")) in E. 
    rewrite <- app_assoc in E. apply app_inv_head in E.
    destruct (references p) as [|r0 rs] eqn:RF.
    + cbn [refs_html] in E. rewrite app_nil_r in E. apply app_inv_tail in E. now subst.
    + exfalso. destruct (refs_end (r0 :: rs)) as [z Z]; [discriminate|]. rewrite Z in E.
      rewrite app_assoc in E. apply app_tail_eq in E as [_ E]; [discriminate E | reflexivity].
  - exfalso. rewrite Q in E. cbn [nrep] in E. rewrite app_nil_r in E. destruct R as [R|R].
    + rewrite R in E. cbn in E. discriminate E.
    + assert (T : starts_with (lit "<p>") (lit "<p>" ++ x ++ lit "</p>" ++ [c_nl]) = true) by reflexivity.
      rewrite <- E in T. destruct (ends_nl _); rewrite <- ?app_assoc in T; rewrite R in T; discriminate.
Qed.
Lemma line_lone ts h : Forall tokl ts -> parse_body RENDER PARSE ts = Ret h -> lone h.
Proof.
  intros F. unfold parse_body. destruct (parse_loop _ _ ts pinit) as [p| |] eqn:E; cbn [bind]; try easy.
  ri. apply lone_finish. eapply hinv_loop; [exact F | | exact E].
  split; [repeat split|]. split; [reflexivity | now left].
Qed.
End Line.

Lemma body_N ts h : Forall tokl ts -> parse_body RENDER PARSE ts = Ret h -> Nd h.
Proof.
  intros F. unfold parse_body. destruct (parse_loop _ _ ts pinit) as [p| |] eqn:E; cbn [bind]; try easy.
  ri. apply N_finish. eapply inv_loop; [exact F | | exact E]. repeat split.
Qed.
End Body.

(** ** All levels *)
Hypothesis quoted : forall f s h, QOK s -> bind (lex f s []) (parse f) = Ret h -> Nd h.

Lemma lex_level f (L PL : str -> Prop) s ig ts :
  (forall s ig ts, OK s -> lex f s ig = Ret ts -> Forall (tok_ok OK PH) ts) ->
  (forall a s, infix a s -> L s -> L a) -> L (lit "EOF") -> L (lit "Non link token returned from lex_links") ->
  (forall s, L s -> OK s) ->
  (mem_char c_hash ig = false -> PL [] /\ forall s h, L s -> ~ In c_nl s -> bind (lex f s [c_hash]) (parse f) = Ret h -> PL h) ->
  L s -> lex (S f) s ig = Ret ts -> Forall (tok1 L L PL (tok_ok OK PH)) ts.
Proof.
  intros IHL LI LE LN LO LH H E. cbn [lex] in E. revert E.
  apply lex_loop_ok; auto.
  - intros r r' a HO S_ I. eapply LI; [|exact HO]. eapply infix_trans; [exact I|]. now apply suffix_infix, ssuffix_suffix.
  - intros t HO. constructor. constructor. auto.
  - intros s' ig' ts' O'. apply IHL. auto.
Qed.

Lemma levels f :
  (forall s ig ts, OK s -> lex f s ig = Ret ts -> Forall (tok_ok OK PH) ts) /\
  (forall ts h, Forall (tok_ok OK PH) ts -> parse f ts = Ret h -> Nd h) /\
  (seen OK c_hash -> forall s h, OK s -> ~ In c_nl s -> bind (lex f s [c_hash]) (parse f) = Ret h -> lone h).
Proof.
  induction f as [|f (IHL & IHP & IHH)]; [split; [|split]; easy|].
  assert (HR : forall s h, QOK s -> bind (lex f s []) (parse f) = Ret h -> Nd h) by (intros s h; apply quoted).
  split; [|split].
  - intros s ig ts O E. apply (lex_level f OK PH) in E; auto.
    + revert E. apply Forall_impl. now constructor.
    + intros _. split; [intros _ x; discriminate|]. intros s' h O' NL R SH. now apply (IHH SH s').
  - intros ts h F. cbn [parse]. apply (body_N _ _ HR IHP OK (fun s H => H) PH (fun h H => H)).
    revert F. apply Forall_impl. intros t [x H]. exact H.
  - intros SH s h O NL E. destruct (lex (S f) s [c_hash]) as [ts| |] eqn:E1; cbn [bind] in E; try discriminate.
    apply (lex_level f (fun s => OK s /\ ~ In c_nl s) (fun _ => False)) in E1; auto.
    + cbn [parse] in E.
      apply (line_lone _ _ IHP (fun s => OK s /\ ~ In c_nl s) (fun s H => proj1 H) (fun _ => False)) in E; auto.
      intros (r & [_ N1] & I). auto.
    + intros a r I [O' N']. split; [eapply O_infix; eauto|]. intros J. apply N'. eapply infix_In; eauto.
    + split; [auto|]. vm_compute. intuition discriminate.
    + split; [auto|]. vm_compute. intuition discriminate.
    + now intros s' [O' _].
    + discriminate.
Qed.
Lemma class_N f s ig h : OK s -> bind (lex f s ig) (parse f) = Ret h -> Nd h.
Proof.
  intros O E. destruct (levels f) as (A & B & _). destruct (lex f s ig) as [ts| |] eqn:E1; cbn [bind] in E; try discriminate.
  eapply B; [|exact E]. eapply A; eauto.
Qed.
End Class.

(** ** The classes of documents *)

(** Nothing that may become a list item or code. *)
Definition calm (s : str) : Prop :=
  free (lit "<`-+" ++ [c_tab]) s /\ ~ infix (lit "    ") s /\ ~ infix (lit "* ") s /\ ~ infix (lit "_ ") s /\
  forall d, is_digit d = true -> ~ infix (d :: lit ". ") s.

Lemma free_infix cs a s : infix a s -> free cs s -> free cs a.
Proof. intros I F c C J. apply (F c C). eapply infix_In; eauto. Qed.
Lemma calm_infix a s : infix a s -> calm s -> calm a.
Proof.
  intros I (F & A & B & C & D). split; [eapply free_infix; eauto|].
  repeat split; [intros J; apply A | intros J; apply B | intros J; apply C | intros d Hd J; apply (D d Hd)];
    (eapply infix_trans; eauto).
Qed.
Lemma free_lit cs s : forallb (fun c => negb (mem_char c s)) cs = true -> free cs s.
Proof.
  intros H c I J. apply (proj1 (forallb_forall _ _) H) in I. apply negb_true_iff in I.
  assert (mem_char c s = true); [|congruence]. unfold mem_char. apply existsb_exists. exists c. split; [exact J | apply ceq_refl].
Qed.
Lemma not_infix_lit p s : contains p s = false -> ~ infix p s.
Proof. intros H I. apply contains_iff in I. congruence. Qed.
Lemma calm_eof : calm (lit "EOF").
Proof.
  split; [now apply free_lit|]. repeat split; try (apply not_infix_lit; reflexivity).
  intros d _ I. apply (infix_In _ _ c_dot) in I; [|right; now left]. revert I. vm_compute. intuition discriminate.
Qed.
Lemma calm_nonlink : calm (lit "Non link token returned from lex_links").
Proof.
  split; [now apply free_lit|]. repeat split; try (apply not_infix_lit; reflexivity).
  intros d _ I. apply (infix_In _ _ c_dot) in I; [|right; now left]. revert I. vm_compute. intuition discriminate.
Qed.
Lemma calm_seen (Q : str -> Prop) : let OK := fun s => calm s /\ Q s in
  (forall s, OK s -> ~ In c_lt s) /\ ~ seen_bullet OK /\ ~ seen_number OK /\ ~ seen_code OK.
Proof.
  intros OK. split; [|split; [|split]].
  - intros s [(F & _) _]. apply F. cbn. tauto.
  - intros (r & [(F & A & B & C & D) _] & [J|[J|[J|J]]]); auto; revert J; apply F; cbn; tauto.
  - intros (r & d & [(F & A & B & C & D) _] & Hd & J). now apply (D d).
  - intros (r & [(F & A & B & C & D) _] & [J|[J|J]]); auto; revert J; apply F; cbn; tauto.
Qed.

(** Escaping makes neither bullets nor numbers if there is no backslash. *)
Lemma esc_plain c x : In x (esc c) -> ~ In x esc_alphabet -> esc c = [x] /\ c = x.
Proof.
  revert c. apply (esc_cases (fun c s => In x s -> ~ In x esc_alphabet -> s = [x] /\ c = x));
    try (intros I NA; exfalso; apply NA; repeat (destruct I as [I|I]; [rewrite <- I; vm_compute; tauto|]); destruct I; fail).
  intros c ? ? ? ? ? ? ? ? ? ? ? ? ? ? [<-|[]] _. now split.
Qed.
Lemma esc_split s : forall x c y, ~ In c esc_alphabet -> flat_map esc s = x ++ c :: y ->
  exists s1 s2, s = s1 ++ c :: s2 /\ x = flat_map esc s1 /\ y = flat_map esc s2.
Proof.
  induction s as [|d s IH]; intros x c y NA E.
  - destruct x; discriminate.
  - cbn [flat_map] in E. destruct (in_dec N.eq_dec c (esc d)) as [I|NI].
    + destruct (esc_plain d c I NA) as [E1 ->]. rewrite E1 in E. cbn [app] in E. destruct x as [|z x].
      * injection E as E. now exists [], s.
      * injection E as <- E. destruct (IH _ _ _ NA E) as (s1 & s2 & -> & -> & ->).
        exists (c :: s1), s2. cbn [app flat_map]. now rewrite E1.
    + assert (P : exists x', x = esc d ++ x' /\ flat_map esc s = x' ++ c :: y).
      { clear IH. revert x E NI. generalize (esc d). intros l. induction l as [|z l IHl]; intros x E NI; [now exists x|].
        destruct x as [|w x]; cbn [app] in E; injection E as E0 E.
        - exfalso. apply NI. now left.
        - destruct (IHl x E) as (x' & -> & E2); [intros I; apply NI; now right|]. exists x'. now subst. }
      destruct P as (x' & -> & E2). destruct (IH _ _ _ NA E2) as (s1 & s2 & -> & -> & ->).
      exists (d :: s1), s2. now split.
Qed.
Lemma esc_nil c : esc c = [] -> c = c_bslash.
Proof. revert c. apply (esc_cases (fun c s => s = [] -> c = c_bslash)); easy. Qed.
Lemma flat_nil s : ~ In c_bslash s -> flat_map esc s = [] -> s = [].
Proof.
  destruct s as [|c s]; [reflexivity|]. intros N_ E. cbn [flat_map] in E. apply app_eq_nil in E as [E _].
  apply esc_nil in E. exfalso. apply N_. now left.
Qed.
Lemma esc_last c x d : esc c = x ++ [d] -> d <> 59%N -> c = d.
Proof.
  revert c. apply (esc_cases (fun c s => s = x ++ [d] -> d <> 59%N -> c = d));
    try (intros E N_; exfalso; apply N_; apply (f_equal (fun l => last l 0%N)) in E; rewrite last_last in E; now symmetry).
  - intros E. now destruct x.
  - intros c ? ? ? ? ? ? ? ? ? ? ? ? ? ? E _. destruct x as [|z [|w x]]; try discriminate. now injection E.
Qed.
Lemma flat_last s : forall x d, ~ In c_bslash s -> flat_map esc s = x ++ [d] -> d <> 59%N -> exists s', s = s' ++ [d].
Proof.
  induction s as [|c s IH] using rev_ind; intros x d N_ E Hd; [now destruct x|].
  rewrite flat_map_app in E. cbn [flat_map] in E. rewrite app_nil_r in E.
  destruct (esc c) as [|z l] eqn:C using rev_ind.
  - apply esc_nil in C as ->. exfalso. apply N_. apply in_app_iff. right. now left.
  - clear IHl. rewrite app_assoc in E. apply app_inj_tail in E as [_ ->].
    apply esc_last in C; [|exact Hd]. subst. now exists s.
Qed.
(** After a plain character the next one is plain too. *)
Lemma esc_next s c y : ~ In c_bslash s -> ~ In c esc_alphabet -> flat_map esc s = c :: y ->
  exists s', s = c :: s' /\ y = flat_map esc s'.
Proof.
  intros N_ NA E. apply (esc_split s []) in E as (s1 & s2 & E1 & E2 & ->); [|exact NA].
  symmetry in E2. apply flat_nil in E2; [subst; now exists s2|].
  intros I. apply N_. rewrite E1. apply in_app_iff. now left.
Qed.
Lemma alpha_no c : mem_char c esc_alphabet = false -> ~ In c esc_alphabet.
Proof.
  intros H I. assert (mem_char c esc_alphabet = true); [|congruence].
  unfold mem_char. apply existsb_exists. exists c. split; [exact I | apply ceq_refl].
Qed.
Lemma esc_word p : p <> [] -> forallb (fun c => negb (mem_char c esc_alphabet)) p = true ->
  forall s, ~ In c_bslash s -> infix p (flat_map esc s) -> infix p s.
Proof.
  intros NE F s N_ (x & y & E). destruct p as [|c p]; [easy|]. cbn [forallb] in F. apply andb_true_iff in F as [F1 F2].
  apply negb_true_iff, alpha_no in F1. cbn [app] in E.
  apply esc_split in E as (s1 & s2 & E1 & _ & E2); [|exact F1].
  assert (N2 : ~ In c_bslash s2).
  { intros I. apply N_. rewrite E1. apply in_app_iff. right. now right. }
  assert (P : exists z, s2 = p ++ z).
  { clear -E2 F2 N2. revert s2 N2 E2; induction p as [|d p IH]; intros s2 N2 E2; [now exists s2|].
    cbn [forallb] in F2. apply andb_true_iff in F2 as [G1 G2]. apply negb_true_iff, alpha_no in G1.
    cbn [app] in E2. symmetry in E2. apply esc_next in E2 as (s' & -> & E2); auto.
    destruct (IH G2 s') as [z ->]; [intros I; apply N2; now right | exact E2 | now exists z]. }
  destruct P as [z ->]. exists s1, z. exact E1.
Qed.
Lemma esc_number d s : is_digit d = true -> ~ In c_bslash s -> infix (d :: lit ". ") (flat_map esc s) -> infix (d :: lit ". ") s.
Proof.
  intros Hd N_ (x & y & E). 
  assert (E' : flat_map esc s = (x ++ [d]) ++ c_dot :: (c_sp :: y)) by (rewrite <- app_assoc; exact E).
  apply esc_split in E' as (s1 & s2 & E1 & E2 & E3); [|now apply alpha_no].
  assert (N1 : ~ In c_bslash s1 /\ ~ In c_bslash s2).
  { split; intros I; apply N_; rewrite E1; apply in_app_iff; [now left | right; now right]. }
  symmetry in E2. apply flat_last in E2 as [s0 ->]; [| apply N1 | intros ->; discriminate].
  symmetry in E3. apply esc_next in E3 as (s3 & -> & _); [| apply N1 | now apply alpha_no].
  exists s0, s3. rewrite E1, <- app_assoc. reflexivity.
Qed.

Lemma calm_sanitize s : calm s -> ~ In c_bslash s -> calm (sanitize s).
Proof.
  intros (F & A & B & C & D) N_. rewrite sanitize_flat. split.
  - intros c I J. rewrite <- sanitize_flat in J. apply sanitize_in in J as [J|J]; [now apply (F c)|].
    revert J. apply alpha_no. revert c I. apply Forall_forall. repeat constructor.
  - repeat split; [intros J; apply A | intros J; apply B | intros J; apply C | intros d Hd J; apply (D d Hd)];
      first [apply esc_word; [discriminate | reflexivity | exact N_ | exact J] | now apply esc_number].
Qed.

(** What is inside block quotes. *)
Definition escaped (s : str) : Prop := calm s /\ free (lit "[>\") s.
Lemma escaped_sanitize s : calm s -> ~ In c_bslash s -> escaped (sanitize s).
Proof.
  intros C N_. split; [now apply calm_sanitize|]. intros c I J. apply sanitize_no_special in J.
  cbn in I. repeat (destruct I as [<-|I]; [discriminate J|]). destruct I.
Qed.
Lemma escaped_N f s ig h : escaped s -> bind (lex f s ig) (parse f) = Ret h -> Nd h.
Proof.
  destruct (calm_seen (free (lit "[>\"))) as (C1 & C2 & C3 & C4).
  apply (class_N escaped (fun _ => False)); auto; try easy.
  - intros a r I [C F]. split; [eapply calm_infix; eauto | eapply free_infix; eauto].
  - split; [apply calm_eof | now apply free_lit].
  - split; [apply calm_nonlink | now apply free_lit].
  - intros (r & [_ F] & I). exfalso. revert I. apply F. cbn. tauto.
  - intros _. split.
    + intros (r & [_ F] & I). revert I. apply F. cbn. tauto.
    + intros (_ & r & [_ F] & I). revert I. apply F. cbn. tauto.
Qed.

Lemma calm_nested s h : calm s -> free (lit ">!") s \/ free (lit ">[") s \/ free (lit "#\") s ->
  renders s h -> nested h.
Proof.
  intros C F [f R]. apply N_nested. change (bind (lex f s []) (parse f) = Ret h) in R. revert R. destruct F as [F|[F|F]].
  - destruct (calm_seen (free (lit ">!"))) as (C1 & C2 & C3 & C4).
    apply (class_N (fun s => calm s /\ free (lit ">!") s) (fun _ => False)); auto; try easy.
    + intros a r I [C' F']. split; [eapply calm_infix; eauto | eapply free_infix; eauto].
    + split; [apply calm_eof | now apply free_lit].
    + split; [apply calm_nonlink | now apply free_lit].
    + intros (r & [_ F'] & I). exfalso. revert I. apply F'. cbn. tauto.
    + intros _. split.
      * intros (r & [_ F'] & I). revert I. apply F'. cbn. tauto.
      * intros ((r & [_ F'] & I) & _). revert I. apply F'. cbn. tauto.
  - destruct (calm_seen (free (lit ">["))) as (C1 & C2 & C3 & C4).
    apply (class_N (fun s => calm s /\ free (lit ">[") s) (fun _ => False)); auto; try easy.
    + intros a r I [C' F']. split; [eapply calm_infix; eauto | eapply free_infix; eauto].
    + split; [apply calm_eof | now apply free_lit].
    + split; [apply calm_nonlink | now apply free_lit].
    + intros (r & [_ F'] & I). exfalso. revert I. apply F'. cbn. tauto.
    + intros _. split.
      * intros (r & [_ F'] & I). revert I. apply F'. cbn. tauto.
      * intros (_ & (r & [_ F'] & I)). revert I. apply F'. cbn. tauto.
  - destruct (calm_seen (free (lit "#\"))) as (C1 & C2 & C3 & C4).
    apply (class_N (fun s => calm s /\ free (lit "#\") s) escaped); auto.
    + intros a r I [C' F']. split; [eapply calm_infix; eauto | eapply free_infix; eauto].
    + split; [apply calm_eof | now apply free_lit].
    + split; [apply calm_nonlink | now apply free_lit].
    + intros _ r [C' F']. apply escaped_sanitize; [exact C'|]. apply F'. cbn. tauto.
    + intros (r & [_ F'] & I). exfalso. revert I. apply F'. cbn. tauto.
    + intros g r k. apply escaped_N.
Qed.
