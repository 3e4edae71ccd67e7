(** * BeginFacts: how the output begins. *)
From Coq Require Import Ascii String.
From Verif Require Import Strings StringsFacts Token Iter Lexer Parser Master HtmlFacts SpecPage.
Open Scope list_scope.

Lemma begins_app h r : begins h -> begins (h ++ r).
Proof. intros (t & x & Ht & ->). exists t, (x ++ r). split; [exact Ht|]. rewrite app_assoc. reflexivity. Qed.
Lemma begins_own t r : In t own_beginnings -> begins (t ++ r).
Proof. intros H. exists t, r. auto. Qed.
Ltac own t := apply (begins_own t); vm_compute; auto 30.

(** Either nothing has been written and no element is open, or the output begins as it should. *)
Definition started (p : pstate) : Prop :=
  begins (html p) \/
  (html p = [] /\ quote_level p = 0 /\ in_task_list p = false /\ in_paragraph p = false /\
   in_ordered_list p = false /\ in_unordered_list p = false /\ in_code p = false).

Lemma started_push s p : begins (html p) -> started (push s p).
Proof. intros H. left. cbn [html push]. apply begins_app. exact H. Qed.
Lemma first_push s p : html p = [] -> begins s -> started (push s p).
Proof. intros E H. left. cbn [html push]. rewrite E. exact H. Qed.

Lemma html_set b q p : html (set_par b p) = html p /\ html (set_quote q p) = html p /\ html (set_ol b p) = html p /\
  html (set_ul b p) = html p /\ html (set_task b p) = html p /\ html (set_code b p) = html p.
Proof. auto 10. Qed.

Lemma pre_begins tok p : begins (html p) -> begins (html (pre tok p)).
Proof.
  intros H.
  assert (O : forall q, begins (html q) -> begins (html (open_par q))).
  { intros q Hq. unfold open_par. destruct (in_paragraph q); [exact Hq|]. cbn. apply begins_app. exact Hq. }
  unfold pre. destruct tok; cbn [is_list_or_newline is_task_or_newline is_inline is_par_closer is_quote_or_newline andb];
    repeat match goal with |- context [if ?b then _ else _] => destruct b end;
    first [exact H | apply O; cbn [html push set_ol set_ul set_task]; apply begins_app; exact H
          | cbn [html push set_ol set_ul set_task set_par set_quote set_code]; rewrite ?app_assoc; repeat apply begins_app; exact H].
Qed.

Lemma dec_begins n : exists c r, dec n = c :: r /\ In c (lit "0123456789").
Proof.
  unfold dec. destruct (Nat.to_uint n) eqn:E; cbn [DecimalString.NilZero.string_of_uint DecimalString.NilEmpty.string_of_uint];
    (eexists; eexists; split; [reflexivity|vm_compute; auto 20]).
Qed.

Lemma header_begins l t lbl : begins (header_html l t lbl).
Proof.
  destruct (dec_begins l) as (c & r & E & Hc).
  assert (G : forall x, begins (lit "<h" ++ dec l ++ x)).
  { intros x. rewrite E. exists (lit "<h" ++ [c]), (r ++ x). split; [|reflexivity].
    cbv in Hc. repeat (destruct Hc as [<-|Hc]; [vm_compute; auto 40|]). destruct Hc. }
  unfold header_html. destruct lbl; apply G.
Qed.

Lemma replace_tab_app r a b : replace [c_tab] r (a ++ b) = replace [c_tab] r a ++ replace [c_tab] r b.
Proof.
  induction a as [|c a IH]; [reflexivity|]. cbn [app]. destruct (ceq c c_tab) eqn:E.
  - apply ceq_eq in E. subst c. change (c_tab :: a ++ b) with ([c_tab] ++ a ++ b). change (c_tab :: a) with ([c_tab] ++ a).
    rewrite !replace_hit, IH, app_assoc. reflexivity.
  - assert (S : forall x, starts_with [c_tab] (c :: x) = false).
    { intros x. cbn [starts_with]. rewrite ceq_sym, E. reflexivity. }
    rewrite !replace_miss by apply S. rewrite IH. reflexivity.
Qed.

Section Loop.
Variable RENDER : str -> res str.
Variable PARSE : list token -> res str.
Hypothesis RENDER_ok : forall s h, RENDER s = Ret h -> begins h.

Lemma replace_begins h : begins h -> begins (replace [c_tab] (lit "  ") h).
Proof.
  intros (t & r & Ht & ->). rewrite replace_tab_app.
  assert (G : exists t' x, In t' own_beginnings /\ replace [c_tab] (lit "  ") t = t' ++ x).
  { destruct (N.eq_dec (hd 0%N t) c_tab) as [K|K].
    - exists (lit " "), (lit " " ++ replace [c_tab] (lit "  ") (tl t)). split; [vm_compute; auto|].
      destruct t as [|c t]; [discriminate K|]. cbn in K. subst c. apply (replace_hit c_tab []).
    - exists t, []. split; [exact Ht|]. rewrite app_nil_r. revert K.
      cbv in Ht. repeat (destruct Ht as [<-|Ht]; [intros K; vm_compute; reflexivity || (destruct K; reflexivity)|]). destruct Ht. }
  destruct G as (t' & x & Ht' & ->). apply begins_app. exists t', x. auto.
Qed.

Lemma body_started tok p p' : started p -> body RENDER PARSE tok (pre tok p) = Ret p' -> started p'.
Proof.
  intros [H|(E & Q & T & P & O & U & C)].
  - pose proof (pre_begins tok p H) as H'. clear H. remember (pre tok p) as q eqn:Eq. clear Eq p.
    assert (BB : forall r, begins (html r) -> started r) by (intros r K; left; exact K).
    destruct tok; cbn [body]; try (intros X; apply Ret_inj in X; subst p'; apply started_push; exact H').
    + destruct (is_blank _); intros X; apply Ret_inj in X; subst p'; [left; exact H'|apply started_push; exact H'].
    + destruct (mapM _ _); cbn [bind]; intros X; try discriminate X; apply Ret_inj in X; subst p'.
      destruct (in_unordered_list q); apply BB; cbn [html push set_ul]; repeat apply begins_app; exact H'.
    + intros X; apply Ret_inj in X; subst p'.
      destruct (in_ordered_list q); apply BB; cbn [html push set_ol]; repeat apply begins_app; exact H'.
    + intros X; apply Ret_inj in X; subst p'. left; exact H'.
    + intros X; apply Ret_inj in X; subst p'. left; exact H'.
    + intros X; apply Ret_inj in X; subst p'. left; exact H'.
    + destruct (is_empty t); [|destruct (RENDER _); cbn [bind]]; intros X; try discriminate X; apply Ret_inj in X; subst p';
        destruct (in_paragraph q); apply BB; cbn [html push set_par set_quote]; repeat apply begins_app; exact H'.
    + destruct (PARSE _); cbn [bind]; intros X; try discriminate X; apply Ret_inj in X; subst p'.
      destruct (in_paragraph q); apply BB; cbn [html push set_par]; repeat apply begins_app; exact H'.
    + destruct (row0_len rows) as [k|]; [|discriminate]. destruct (negb _).
      * intros X; apply Ret_inj in X; subst p'. left; exact H'.
      * destruct (table_html _ _ _); cbn [bind]; intros X; try discriminate X; apply Ret_inj in X; subst p'. apply started_push; exact H'.
    + intros X; apply Ret_inj in X; subst p'.
      destruct (in_task_list q); apply BB; cbn [html push set_task]; repeat apply begins_app; exact H'.
    + intros X; apply Ret_inj in X; subst p'. left; exact H'.
  - assert (Hp : forall tok, is_inline tok = true -> (forall t, tok = Plaintext t -> is_blank t = false) ->
      begins (html (pre tok p))).
    { intros t I B. unfold pre. destruct t; try discriminate I; cbn [is_list_or_newline is_task_or_newline is_inline andb];
        rewrite ?T, ?P, ?O, ?U; cbn [negb andb orb].
      all: try (rewrite (B _ eq_refl)).
      all: cbn [html push set_par set_quote]; rewrite Q, E; own (lit "<p>"). }
    destruct (is_inline tok) eqn:I.
    + destruct (match tok with Plaintext t => is_blank t | _ => false end) eqn:B.
      * destruct tok; try discriminate B. cbn [body]. rewrite B. intros X. apply Ret_inj in X; subst p'.
        right. unfold pre. rewrite B. repeat split; assumption.
      * assert (Hb : begins (html (pre tok p))) by (apply Hp; [exact I|intros t ->; exact B]).
        remember (pre tok p) as q eqn:Eq. clear Eq. destruct tok; try discriminate I; cbn [body]; rewrite ?B;
          intros X; apply Ret_inj in X; subst p'; apply started_push; exact Hb.
    + assert (Hc : forall t, tok = Code t -> pre tok p = set_code true (push (lit "<pre><code>") p)).
      { intros t ->. unfold pre. cbn [is_list_or_newline is_task_or_newline is_inline is_par_closer is_quote_or_newline andb].
        rewrite O, U, T, C. reflexivity. }
      assert (Hn : (forall t, tok <> Code t) -> pre tok p = p).
      { intros N. unfold pre. destruct tok; try discriminate I; try reflexivity;
          cbn [is_list_or_newline is_task_or_newline is_inline is_par_closer is_quote_or_newline andb];
          rewrite ?O, ?U, ?T, ?P, ?Q; cbn; try reflexivity. destruct (N _ eq_refl). }
      destruct tok; try discriminate I;
        try (rewrite Hn by discriminate; cbn [body]; rewrite ?O, ?U, ?T, ?P).
      all: try (intros X; apply Ret_inj in X; subst p'; right; repeat split; assumption).
      all: try (intros X; apply Ret_inj in X; subst p'; apply first_push; [exact E|]).
      * apply header_begins.
      * destruct (mapM _ toks); cbn [bind]; intros X; try discriminate X; apply Ret_inj in X; subst p'.
        apply started_push. cbn [html push set_ul]. rewrite E. own (lit "<ul>").
      * intros X. apply Ret_inj in X; subst p'. apply started_push. cbn [html push set_ol]. rewrite E. own (lit "<ol>").
      * own (lit "<hr ").
      * own [c_tab].
      * own [c_tab].
      * rewrite (Hc _ eq_refl). cbn [body]. intros X. apply Ret_inj in X; subst p'. apply started_push.
        cbn [html push set_code]. rewrite E. own (lit "<pre>").
      * rewrite Q. set (q := set_quote level (push (quote_move 0 level) p)).
        assert (Hq : started q).
        { unfold q. destruct level as [|level].
          - right. cbn [quote_move Nat.eqb push set_quote html quote_level in_task_list in_paragraph in_ordered_list
              in_unordered_list in_code]. rewrite E. repeat split; assumption.
          - left. cbn [html push set_quote quote_move Nat.eqb Nat.ltb Nat.leb Nat.sub nrep]. rewrite E.
            unfold quote_move. cbn [Nat.eqb Nat.ltb Nat.leb Nat.sub nrep]. own (lit "<blockquote>"). }
        destruct (is_empty t); [intros X; apply Ret_inj in X; subst p'; exact Hq|].
        destruct (RENDER _) as [h| |] eqn:R; cbn [bind]; intros X; try discriminate X. apply Ret_inj in X; subst p'.
        apply RENDER_ok, replace_begins in R. destruct Hq as [Hq|(Eq & _)].
        -- apply started_push. exact Hq.
        -- apply first_push; [exact Eq|exact R].
      * unfold image_html. destruct (is_empty (trim l)), t; own (lit "<p>").
      * destruct (PARSE toks); cbn [bind]; intros X; try discriminate X. apply Ret_inj in X; subst p'.
        apply first_push; [exact E|]. own (lit "<details>").
      * destruct (row0_len rows) as [k|]; [|discriminate]. destruct (negb _).
        -- intros X; apply Ret_inj in X; subst p'. right. repeat split; assumption.
        -- unfold table_html. destruct (mapM _ rows); cbn [bind]; intros X; try discriminate X. apply Ret_inj in X; subst p'.
           apply first_push; [exact E|]. own (lit "<table ").
      * intros X. apply Ret_inj in X; subst p'. apply started_push. cbn [html push set_task]. rewrite E. own (lit "<ul ").
Qed.

Lemma loop_started ts : forall p p', started p -> parse_loop RENDER PARSE ts p = Ret p' -> started p'.
Proof.
  induction ts as [|t ts IH]; intros p p' H; cbn [parse_loop]; [intros X; injection X as <-; exact H|].
  destruct (body RENDER PARSE t (pre t p)) as [p1| |] eqn:B; cbn [bind]; try discriminate.
  apply IH. apply (body_started t p p1 H B).
Qed.
End Loop.

Lemma finish_begins p : started p -> begins (finish p).
Proof.
  assert (F : forall q, begins (html q) -> begins (finish q)).
  { intros q H. unfold finish. cbv zeta.
    assert (K : begins ((((html q ++ (if in_paragraph q then lit "</p>" ++ [c_nl] else [])) ++
      nrep (quote_level q) (lit "</blockquote>" ++ [c_nl])) ++
      (if in_task_list q || in_unordered_list q then lit "</ul>" else [])) ++
      (if in_ordered_list q then lit "</ol>" else []))) by (repeat apply begins_app; exact H).
    revert K. generalize ((((html q ++ (if in_paragraph q then lit "</p>" ++ [c_nl] else [])) ++
      nrep (quote_level q) (lit "</blockquote>" ++ [c_nl])) ++
      (if in_task_list q || in_unordered_list q then lit "</ul>" else [])) ++
      (if in_ordered_list q then lit "</ol>" else [])). intros h K.
    apply begins_app. destruct (in_code q), (ends_nl h);
      repeat match goal with |- context [if ?b then _ else _] => destruct b end; repeat apply begins_app; exact K. }
  intros [H|(E & Q & T & P & O & U & C)]; [apply F; exact H|].
  unfold finish. cbv zeta. rewrite E, Q, T, P, O, U, C. cbn [nrep orb app].
  change (ends_nl []) with false. cbv iota. own [c_nl].
Qed.

Lemma parse_begins n : forall ts h, parse n ts = Ret h -> begins h.
Proof.
  induction n as [|n IH]; intros ts h; [discriminate|]. cbn [parse]. unfold parse_body.
  destruct (parse_loop _ _ ts pinit) as [p| |] eqn:L; cbn [bind]; try discriminate. intros X. injection X as <-.
  apply finish_begins. revert L. apply loop_started.
  - intros s h'. destruct (lex n s []) as [ts'| |]; cbn [bind]; try discriminate. apply IH.
  - right. repeat split; reflexivity.
Qed.

Lemma renders_begins s h : renders s h -> begins h.
Proof.
  intros [n E]. revert E. unfold render, render_ignore. destruct (lex n s []) as [ts| |]; cbn [bind]; try discriminate.
  apply parse_begins.
Qed.

Lemma begins_no_document h t r : begins h -> In t document_beginnings -> h <> t ++ r.
Proof.
  intros (o & x & Ho & ->) Ht E.
  assert (K : forallb (fun a => forallb (fun b => negb (starts_with a b) && negb (starts_with b a)) document_beginnings)
                own_beginnings = true) by (vm_compute; reflexivity).
  rewrite forallb_forall in K. specialize (K o Ho). rewrite forallb_forall in K. specialize (K t Ht).
  apply andb_true_iff in K. rewrite !negb_true_iff in K. destruct K as [K1 K2].
  assert (D : (exists y, o = t ++ y) \/ (exists y, t = o ++ y)).
  { clear -E. revert t E. induction o as [|a o IH]; intros t E; [right; exists t; reflexivity|].
    destruct t as [|b t]; [left; exists (a :: o); reflexivity|]. injection E as <- E.
    destruct (IH t E) as [[y ->]|[y ->]]; [left|right]; exists y; reflexivity. }
  destruct D as [[y ->]|[y ->]]; [rewrite starts_with_app in K2|rewrite starts_with_app in K1]; discriminate.
Qed.
