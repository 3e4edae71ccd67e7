(** * TextFacts: ordinary text. *)
From Coq Require Import Ascii String.
From Verif Require Import Strings StringsFacts Parser SanitizeFacts LexMono Markdown MarkdownFacts MarkdownBlocks MarkdownSound
  HtmlFacts Decode DecodeFacts SpecText.
Open Scope list_scope.

(** Ordinary text [s] before [r]. *)
Fixpoint ord_before (r s : str) : bool :=
  match s with
  | [] => true
  | c :: s' => ordinary_char c (s' ++ r) && ord_before r s'
  end.
Lemma ord_before_nil s : ord_before [] s = ordinary s.
Proof. induction s as [|c s IH]; [reflexivity|]. cbn [ord_before ordinary]. now rewrite app_nil_r, IH. Qed.

Lemma ordinary_char_parts c r : ordinary_char c r = true ->
  mem_char c markup_chars = false /\ (c = c_sp -> starts_in [c_sp] r = false) /\
  (c = c_nl -> starts_in [c_nl] r = false) /\ (is_digit c = true -> starts_with (lit ". ") r = false) /\
  (c = c_bang -> starts_in [c_lbrk] r = false) /\ (c = c_hash -> hash_ok r = true).
Proof.
  unfold ordinary_char. rewrite !andb_true_iff, !orb_true_iff, !negb_true_iff, !andb_false_iff, !ceq_neq.
  intros (((((H1 & H2) & H3) & H4) & H5) & H6). intuition congruence.
Qed.
Lemma ordinary_app_char c r x : ordinary_char c r = true -> r <> [] -> starts_with (lit ". ") (r ++ x) = starts_with (lit ". ") r ->
  ordinary_char c (r ++ x) = true.
Proof.
  intros H N E. unfold ordinary_char in *. rewrite !starts_in_app by exact N. rewrite E. destruct r; [easy|exact H].
Qed.

(** What ordinary text can be followed by. *)
Definition stop (r : str) : Prop := starts_in [c_sp; c_tab; c_nl; c_dot; c_lbrk] r = false.

Lemma plain_char c : mem_char c markup_chars = false -> c <> c_sp -> c <> c_nl -> is_digit c = false -> c <> c_bang -> c <> c_hash -> plain c = true.
Proof.
  intros H1 H2 H3 H4 H5 H6. unfold plain. apply negb_true_iff. destruct (mem_char c syntax_chars) eqn:E; [exfalso|auto].
  apply mem_char_iff in E. unfold syntax_chars in E. apply in_app_iff in E as [E|E].
  - assert (X : In c (lit "*_-+>~`[<|\") \/ c = c_bang \/ In c (lit "0123456789") \/ c = c_hash).
    { revert E. vm_compute. intuition. }
    destruct X as [X|[X|[X|X]]]; [|easy| |easy].
    + assert (Y : mem_char c markup_chars = true) by (apply mem_char_iff, in_or_app; auto). congruence.
    + repeat (destruct X as [<-|X]; [discriminate H4|]). destruct X.
  - destruct E as [E|[E|[E|[]]]]; [subst; easy| |subst; easy]. subst c. revert H1. vm_compute. discriminate.
Qed.
Lemma not_sp_tab r : starts_in [c_sp] r = false -> starts_in [c_tab] r = false -> starts_in blank_chars r = false.
Proof. intros H1 H2. now apply (starts_in_both [c_sp] [c_tab]). Qed.

(** The lookahead of ordinary characters. *)
Lemma ord_no_tab r s : ord_before r s = true -> starts_in [c_tab] r = false -> starts_in [c_tab] (s ++ r) = false.
Proof.
  intros H S0. destruct s as [|c s]; [exact S0|]. cbn [ord_before] in H. apply andb_true_iff in H as [H _].
  apply ordinary_char_parts in H as (H & _). cbn [app starts_in]. destruct (mem_char c [c_tab]) eqn:E; [|auto].
  apply mem_char_iff in E as [<-|[]]. revert H. vm_compute. discriminate.
Qed.
Lemma txt_cons c s : txt (c :: s) = show c ++ txt s.
Proof. unfold txt, ink, show. cbn [filter]. unfold visible at 1. now destruct (is_whitespace c). Qed.
Lemma txt_app a b : txt (a ++ b) = txt a ++ txt b.
Proof. unfold txt, ink, escaped. now rewrite filter_app, flat_map_app. Qed.
Lemma digit_visible d : is_digit d = true -> visible d = true.
Proof. intros H. now apply digit_show in H as [-> _]. Qed.

(** One ordinary character is a piece (a digit and a dot are one piece). *)
Lemma ord_piece hd r c s : ord_before r (c :: s) = true -> starts_in [c_tab; c_dot] r = false ->
  (exists v, piece hd (s ++ r) [c] v (show c) /\ v = visible c) \/
  (exists s', s = c_dot :: s' /\ piece hd (s' ++ r) [c; c_dot] true (show c ++ show c_dot) /\ visible c = true).
Proof.
  intros H S0. cbn [ord_before] in H. apply andb_true_iff in H as [H HS].
  assert (ST : starts_in [c_tab] (s ++ r) = false).
  { apply ord_no_tab; [exact HS|]. eapply starts_in_incl; [|exact S0]. intros x [<-|[]]. now left. }
  apply ordinary_char_parts in H as (H1 & H2 & H3 & H4 & H5 & H6).
  destruct (N.eq_dec c c_sp) as [->|N2].
  { left. exists false. split; [|reflexivity]. apply (p_blanks hd (s ++ r) 1); [lia|]. apply not_sp_tab; auto. }
  destruct (N.eq_dec c c_nl) as [->|N3].
  { left. exists false. split; [|reflexivity]. apply p_newline. auto. }
  destruct (is_digit c) eqn:D.
  { destruct (starts_in [c_dot] (s ++ r)) eqn:SD.
    - right. destruct s as [|x s].
      { exfalso. cbn [app] in SD. assert (K : starts_in [c_dot] r = false).
        { eapply starts_in_incl; [|exact S0]. intros x [<-|[]]. right. now left. } congruence. }
      cbn [app starts_in] in SD. apply mem_char_iff in SD as [<-|[]]. exists s. split; [reflexivity|]. split; [|now apply digit_visible].
      destruct (digit_show c D) as [_ ->]. change (show c_dot) with [c_dot]. apply p_digit_dot; [exact D|].
      specialize (H4 eq_refl). cbn [app lit] in H4.
      destruct (s ++ r) as [|y z]; [reflexivity|]. cbn [starts_in]. destruct (mem_char y [c_sp]) eqn:Y; [|auto].
      apply mem_char_iff in Y as [<-|[]]. discriminate H4.
    - left. exists true. destruct (digit_show c D) as [V ->]. split; [|auto]. now apply p_digit. }
  left. destruct (N.eq_dec c c_bang) as [->|N5].
  { exists true. split; [|reflexivity]. apply p_bang. auto. }
  destruct (N.eq_dec c c_hash) as [->|N6].
  { exists true. split; [|reflexivity]. specialize (H6 eq_refl). unfold hash_ok in H6.
    destruct hd; [now apply p_hash_in_heading|].
    destruct (s ++ r) as [|y z]; [discriminate|]. apply negb_true_iff in H6.
    apply (p_hashes false (y :: z) 1); auto.
    - cbn [starts_in]. cbn [mem_char existsb] in H6 |- *. apply orb_false_iff in H6 as [-> _]. reflexivity.
    - right. cbn [starts_in]. cbn [mem_char existsb] in H6 |- *. now apply orb_false_iff in H6 as [_ ->]. }
  exists (visible c). split; [|reflexivity]. apply p_char. now apply plain_char.
Qed.

(** Ordinary text inside an open paragraph, ... *)
Lemma ord_more hd c q r h f : starts_in [c_tab; c_dot] r = false -> doc hd true c q LNone r h f ->
  forall n s, length s <= n -> ord_before r s = true -> doc hd true c q LNone (s ++ r) (txt s ++ h) f.
Proof.
  intros S0 D n. induction n as [|n IH]; intros s L O.
  { destruct s; [exact D | cbn in L; lia]. }
  destruct s as [|x s]; [exact D|].
  destruct (ord_piece hd r x s O S0) as [(v & P & V)|(s' & -> & P & V)].
  - cbn [ord_before] in O. apply andb_true_iff in O as [_ O]. cbn in L.
    rewrite txt_cons, <- app_assoc. change ((x :: s) ++ r) with ([x] ++ s ++ r).
    destruct v; [apply d_more | apply d_blank]; auto; apply IH; auto; lia.
  - cbn [ord_before] in O. apply andb_true_iff in O as [_ O]. apply andb_true_iff in O as [_ O]. cbn in L.
    rewrite !txt_cons. rewrite <- (app_assoc (show x)), <- (app_assoc (show c_dot)), (app_assoc (show x)). change ((x :: c_dot :: s') ++ r) with ([x; c_dot] ++ s' ++ r).
    apply d_more; auto. apply IH; auto; lia.
Qed.
(** ... and before a paragraph is open: either it opens it, or it is invisible. *)
Lemma ord_openq hd c q r h f h0 f0 : starts_in [c_tab; c_dot] r = false -> doc hd true c 0 LNone r h f ->
  doc hd false c q LNone r h0 f0 ->
  forall n s, length s <= n -> ord_before r s = true ->
  if has_ink s then doc hd false c q LNone (s ++ r) (times q (lit "</blockquote>") ++ lit "<p>" ++ txt s ++ h) f
  else doc hd false c q LNone (s ++ r) h0 f0 /\ txt s = [].
Proof.
  intros S0 D D0 n. induction n as [|n IH]; intros s L O.
  { destruct s; [split; [exact D0|reflexivity] | cbn in L; lia]. }
  destruct s as [|x s]; [split; [exact D0|reflexivity]|].
  destruct (ord_piece hd r x s O S0) as [(v & P & V)|(s' & -> & P & V)].
  - cbn [ord_before] in O. apply andb_true_iff in O as [_ O]. cbn in L. change (has_ink (x :: s)) with (visible x || has_ink s).
    change ((x :: s) ++ r) with ([x] ++ s ++ r). rewrite <- V. destruct v; cbn [orb].
    + rewrite txt_cons, <- (app_assoc (show x)).
      apply (d_open hd c q LNone [x] (s ++ r) (show x) (txt s ++ h) f P).
      apply (ord_more hd c 0 r h f S0 D (length s)); auto.
    + specialize (IH s ltac:(lia) O).
      assert (SX : show x = []). { unfold visible in V. unfold show. destruct (is_whitespace x); [auto|discriminate V]. }
      rewrite SX in P. rewrite txt_cons, SX. destruct (has_ink s).
      * apply (d_blank hd false c q [x] (s ++ r) [] _ f P). exact IH.
      * destruct IH as [IH E]. split; [|exact E]. apply (d_blank hd false c q [x] (s ++ r) [] _ f0 P). exact IH.
  - cbn [ord_before] in O. apply andb_true_iff in O as [_ O]. apply andb_true_iff in O as [_ O]. cbn in L.
    change (has_ink (x :: c_dot :: s')) with (visible x || has_ink (c_dot :: s')). rewrite V. cbn [orb].
    rewrite !txt_cons. rewrite <- (app_assoc (show x)), <- (app_assoc (show c_dot)), (app_assoc (show x)).
    change ((x :: c_dot :: s') ++ r) with ([x; c_dot] ++ s' ++ r).
    apply (d_open hd c q LNone [x; c_dot] (s' ++ r) _ (txt s' ++ h) f P).
    apply (ord_more hd c 0 r h f S0 D (length s')); auto.
Qed.

Lemma ord_open hd c r h f h0 f0 : starts_in [c_tab; c_dot] r = false -> doc hd true c 0 LNone r h f ->
  doc hd false c 0 LNone r h0 f0 ->
  forall n s, length s <= n -> ord_before r s = true ->
  if has_ink s then doc hd false c 0 LNone (s ++ r) (lit "<p>" ++ txt s ++ h) f
  else doc hd false c 0 LNone (s ++ r) h0 f0 /\ txt s = [].
Proof. exact (ord_openq hd c 0 r h f h0 f0). Qed.

(** ** Contexts *)
Lemma rev_cons_starts cs (c x : char) s : starts_in cs (rev (c :: x :: s)) = starts_in cs (rev (x :: s)).
Proof.
  cbn [rev]. destruct (rev s ++ [x]) as [|y z] eqn:E; [|reflexivity].
  apply app_eq_nil in E as [_ E]. discriminate E.
Qed.
Lemma ord_ext r s : ordinary s = true -> starts_in [c_sp; c_dot] r = false ->
  (starts_in [c_nl] r = true -> starts_in [c_nl] (rev s) = false) ->
  (starts_in [c_lbrk] r = true -> starts_in [c_bang] (rev s) = false) -> ord_before r s = true.
Proof.
  induction s as [|c s IH]; intros O S0 H1 H2; [reflexivity|]. cbn [ordinary] in O. apply andb_true_iff in O as [OC O].
  cbn [ord_before]. apply andb_true_iff. split.
  - destruct s as [|x s].
    + apply ordinary_char_parts in OC as (M & _ & _ & _ & _ & HH). unfold ordinary_char. rewrite M. cbn [app].
      assert (E0 : ceq c c_hash = false) by (apply ceq_neq; intros ->; now specialize (HH eq_refl)).
      assert (E1 : starts_in [c_sp] r = false) by (eapply starts_in_incl; [|exact S0]; intros x [<-|[]]; now left).
      rewrite E1, andb_false_r.
      assert (E2 : ceq c c_nl && starts_in [c_nl] r = false).
      { destruct (starts_in [c_nl] r) eqn:E; [|apply andb_false_r]. rewrite andb_true_r. specialize (H1 eq_refl).
        cbn in H1. now rewrite orb_false_r in H1. }
      assert (E3 : ceq c c_bang && starts_in [c_lbrk] r = false).
      { destruct (starts_in [c_lbrk] r) eqn:E; [|apply andb_false_r]. rewrite andb_true_r. specialize (H2 eq_refl).
        cbn in H2. now rewrite orb_false_r in H2. }
      rewrite E2, E3. assert (E4 : starts_with (lit ". ") r = false).
      { destruct r as [|y r]; [reflexivity|]. cbn [starts_in mem_char existsb] in S0. cbn [lit starts_with].
        destruct (ceq (N_of_ascii ".") y) eqn:K; [|reflexivity]. apply ceq_eq in K. subst y. revert S0. vm_compute. discriminate. }
      rewrite E0, E4, andb_false_r. reflexivity.
    + apply ordinary_app_char; [exact OC | easy |]. cbn [app lit starts_with].
      destruct s as [|y s]; [|reflexivity]. cbn [app]. destruct r as [|y r]; [reflexivity|].
      cbn [starts_in mem_char existsb] in S0. destruct (ceq (N_of_ascii " ") y) eqn:K; [|reflexivity].
      apply ceq_eq in K. subst y. revert S0. vm_compute. discriminate.
  - destruct s as [|x s]; [reflexivity|]. apply IH; auto; intros K; rewrite <- (rev_cons_starts _ c x s); auto.
Qed.
Lemma paragraph_parts p : paragraph p = true ->
  ordinary p = true /\ has_ink p = true /\ starts_in [c_nl] p = false /\ starts_in [c_nl] (rev p) = false.
Proof. unfold paragraph. rewrite !andb_true_iff, !negb_true_iff. tauto. Qed.
Lemma has_ink_cons p : has_ink p = true -> p <> [].
Proof. now intros H ->. Qed.
(** A paragraph, followed by the end or by a blank line. *)
Lemma para_doc hd c p r h f : paragraph p = true -> r = [] \/ (exists r', r = c_nl :: r') ->
  (forall b, doc hd b c 0 LNone r (close_p b ++ h) f) ->
  doc hd false c 0 LNone (p ++ r) (p_tag (txt p) ++ h) f.
Proof.
  intros P R D. apply paragraph_parts in P as (O & I & S1 & S2).
  assert (S3 : starts_in [c_tab; c_dot] r = false) by (destruct R as [->|[r' ->]]; reflexivity).
  assert (OB : ord_before r p = true).
  { apply ord_ext; auto; destruct R as [->|[r' ->]]; auto; discriminate. }
  pose proof (ord_open hd c r _ f _ f S3 (D true) (D false) (length p) p (le_n _) OB) as K. rewrite I in K.
  unfold p_tag. rewrite <- !app_assoc. cbn [close_p] in K. rewrite <- !app_assoc in K. exact K.
Qed.
Lemma after_head qs : after qs = [] \/ exists r', after qs = c_nl :: r'.
Proof. destruct qs as [|q qs]; [now left|right]. eexists. reflexivity. Qed.
Lemma starts_in_para p r : paragraph p = true -> starts_in [c_nl] (p ++ r) = false.
Proof.
  intros P. apply paragraph_parts in P as (_ & I & S1 & _). rewrite starts_in_app; [exact S1|]. now apply has_ink_cons.
Qed.
Lemma after_doc hd c qs : paragraphs qs -> forall b, doc hd b c 0 LNone (after qs) (close_p b ++ p_tags qs) (mkF c 0 [] []).
Proof.
  induction 1 as [|q qs P F IH]; intros b.
  - cbn [after p_tags map concat]. rewrite app_nil_r. apply (d_end hd b c 0 LNone).
  - change (after (q :: qs)) with (crep 2 c_nl ++ q ++ after qs).
    apply d_newlines; [lia | now apply starts_in_para|].
    unfold p_tags. cbn [map concat]. apply para_doc; auto using after_head.
Qed.
Lemma before_doc hd c ps r h f : paragraphs ps -> starts_in [c_nl] r = false -> doc hd false c 0 LNone r h f ->
  doc hd false c 0 LNone (before ps ++ r) (p_tags ps ++ h) f.
Proof.
  intros P S0 D. induction P as [|p ps P F IH]; [exact D|].
  unfold before, p_tags. cbn [map concat]. fold (before ps) (p_tags ps). rewrite <- !app_assoc.
  apply para_doc; [exact P | right; eexists; reflexivity|]. intros b.
  change (blank_line ++ before ps ++ r) with (crep 2 c_nl ++ before ps ++ r). apply d_newlines; [lia| |exact IH].
  destruct F as [|p2 ps' P2 F2]; [exact S0|]. unfold before. cbn [map concat]. rewrite <- !app_assoc. now apply starts_in_para.
Qed.
Lemma with_nl_ends h : with_nl (h ++ [c_nl]) = h ++ [c_nl].
Proof. unfold with_nl. now rewrite ends_with_app. Qed.
Lemma p_tag_ends h : exists z, p_tag h = z ++ [c_nl].
Proof. exists (lit "<p>" ++ h ++ lit "</p>"). unfold p_tag. now rewrite <- !app_assoc. Qed.
Lemma p_tags_ends ps : p_tags ps = [] \/ exists z, p_tags ps = z ++ [c_nl].
Proof.
  induction ps as [|p ps IH] using rev_ind; [now left|]. right. unfold p_tags. rewrite map_app, concat_app. cbn [map concat].
  destruct (p_tag_ends (txt p)) as [z ->]. rewrite app_nil_r. eexists. now rewrite app_assoc.
Qed.
Lemma with_nl_app h g : (exists z, g = z ++ [c_nl]) -> with_nl (h ++ g) = h ++ g.
Proof. intros [z ->]. rewrite app_assoc. apply with_nl_ends. Qed.
Lemma with_nl_app_r h g : with_nl (h ++ p_tag g ++ []) = h ++ p_tag g ++ [].
Proof. rewrite app_nil_r. apply with_nl_app, p_tag_ends. Qed.
Lemma fin_plain h : fin h (mkF false 0 [] []) = with_nl h.
Proof. unfold fin. cbn [f_quote f_close f_code f_notes times repeat concat notes_html]. now rewrite !app_nil_r. Qed.
Lemma doc_renders s h : doc false false false 0 LNone s h (mkF false 0 [] []) -> renders s (with_nl h).
Proof. intros D. apply displays_renders. exists h, (mkF false 0 [] []). split; [exact D | symmetry; apply fin_plain]. Qed.

Lemma block_shown s h : s <> [] -> starts_in [c_nl] s = false ->
  (forall qs, paragraphs qs -> doc false false false 0 LNone (s ++ after qs) (h ++ p_tags qs) (mkF false 0 [] [])) ->
  shown_as_block renders s h.
Proof.
  intros NE S0 D ps qs P Q. apply doc_renders. apply before_doc; auto. now rewrite starts_in_app.
Qed.

Lemma trail_parts b : trail b = true -> ordinary b = true /\ starts_in [c_nl] (rev b) = false.
Proof. unfold trail. now rewrite andb_true_iff, negb_true_iff. Qed.
Lemma lead_parts a : lead a = true -> ordinary a = true /\ starts_in [c_nl] a = false /\ starts_in [c_bang] (rev a) = false.
Proof. unfold lead. rewrite !andb_true_iff, !negb_true_iff. tauto. Qed.
Lemma ord_after b qs : trail b = true -> ord_before (after qs) b = true.
Proof.
  intros T. apply trail_parts in T as [O S0]. apply ord_ext; auto; destruct (after_head qs) as [->|[r' ->]]; auto; discriminate.
Qed.
(** What can follow a construct. *)
Lemma trail_look cs no b qs : trail b = true -> starts_in no b = false -> incl cs (markup_chars ++ no) -> ~ In c_nl cs ->
  starts_in cs (b ++ after qs) = false.
Proof.
  intros T N I NL. destruct b as [|x b].
  - cbn [app]. destruct (after_head qs) as [->|[r' ->]]; [auto|]. cbn [starts_in]. destruct (mem_char c_nl cs) eqn:E; [|auto].
    apply mem_char_iff in E. easy.
  - cbn [app starts_in]. destruct (mem_char x cs) eqn:E; [exfalso|auto]. apply mem_char_iff, I, in_app_iff in E.
    apply trail_parts in T as [O _]. cbn [ordinary] in O. apply andb_true_iff in O as [O _].
    apply ordinary_char_parts in O as (M & _). destruct E as [E|E].
    + apply mem_char_iff in E. congruence.
    + cbn [starts_in] in N. apply mem_char_iff in E. congruence.
Qed.
(** Text after a construct, to the end of the document. *)
Lemma trail_doc hd c b qs : trail b = true -> paragraphs qs ->
  doc hd true c 0 LNone (b ++ after qs) (txt b ++ close_p true ++ p_tags qs) (mkF c 0 [] []).
Proof.
  intros T Q. apply (ord_more hd c 0 (after qs) _ _) with (n := length b); auto using ord_after.
  - destruct (after_head qs) as [->|[r' ->]]; reflexivity.
  - now apply after_doc.
Qed.
(** Text before a construct that opens a paragraph. *)
Lemma lead_doc hd c a r h f : ord_before r a = true -> starts_in [c_tab; c_dot] r = false ->
  doc hd true c 0 LNone r h f -> doc hd false c 0 LNone r (lit "<p>" ++ h) f ->
  doc hd false c 0 LNone (a ++ r) (lit "<p>" ++ txt a ++ h) f.
Proof.
  intros O S0 D D0. pose proof (ord_open hd c r h f _ f S0 D D0 (length a) a (le_n _) O) as K.
  destruct (has_ink a); [exact K|]. destruct K as [K ->]. exact K.
Qed.
Lemma lead_before a s x : lead a = true -> s <> [] -> starts_in [c_sp; c_tab; c_nl; c_dot] s = false ->
  ord_before (s ++ x) a = true /\ starts_in [c_tab; c_dot] (s ++ x) = false.
Proof.
  intros L NE S0. apply lead_parts in L as (O & S1 & S2).
  assert (SI : forall cs, incl cs [c_sp; c_tab; c_nl; c_dot] -> starts_in cs (s ++ x) = false).
  { intros cs I. rewrite starts_in_app by exact NE. eapply starts_in_incl; eauto. }
  split; [|apply SI; intros y [<-|[<-|[]]]; [right; now left|right; right; right; now left]].
  apply ord_ext; auto.
  - apply SI. intros y [<-|[<-|[]]]; [now left|right; right; right; now left].
  - rewrite SI; [discriminate|]. intros y [<-|[]]. right. right. now left.
Qed.
Lemma starts_lead a s x : lead a = true -> s <> [] -> starts_in [c_sp; c_tab; c_nl; c_dot] s = false ->
  starts_in [c_nl] (a ++ s ++ x) = false.
Proof.
  intros L NE S0. apply lead_parts in L as (O & S1 & S2). destruct a as [|y a]; [|exact S1].
  cbn [app]. rewrite starts_in_app by exact NE. eapply starts_in_incl; [|exact S0]. intros z [<-|[]]. right. right. now left.
Qed.
Lemma line_shown no s h : s <> [] -> starts_in [c_sp; c_tab; c_nl; c_dot] s = false ->
  (forall b qs, trail b = true -> paragraphs qs -> starts_in no b = false -> piece false (b ++ after qs) s true h) ->
  shown_in_line renders no s h.
Proof.
  intros NE S0 P ps a b qs HP HQ A B NO.
  specialize (P b qs B HQ NO). destruct (lead_before a s (b ++ after qs) A NE S0) as [O S1].
  pose proof (trail_doc false false b qs B HQ) as T.
  assert (D : doc false false false 0 LNone (before ps ++ (a ++ s ++ b) ++ after qs)
                (p_tags ps ++ p_tag (txt a ++ h ++ txt b) ++ p_tags qs) (mkF false 0 [] [])).
  { rewrite <- !app_assoc. apply before_doc; [exact HP | now apply starts_lead|].
    unfold p_tag. rewrite <- !app_assoc.
    apply lead_doc; auto.
    - apply d_more; [exact P | exact T].
    - apply (d_open false false 0 LNone s (b ++ after qs) h _ _ P T). }
  apply doc_renders in D.
  assert (W : with_nl (p_tags ps ++ p_tag (txt a ++ h ++ txt b) ++ p_tags qs) = p_tags ps ++ p_tag (txt a ++ h ++ txt b) ++ p_tags qs).
  { destruct (p_tags_ends qs) as [E|E].
    - rewrite E, app_nil_r. apply with_nl_app, p_tag_ends.
    - rewrite (app_assoc (p_tags ps)). now apply with_nl_app. }
  now rewrite W in D.
Qed.

(** ** Decoding *)
Lemma decode_escaped named t : html5 named -> ~ In c_pipe t -> ~ In c_tilde t -> ~ In c_bslash t ->
  decode named (escaped t) = t.
Proof.
  intros H N1 N2 N3. unfold escaped. induction t as [|c t IH]; [reflexivity|].
  cbn [flat_map]. rewrite decode_esc by exact H. rewrite IH by (intros I; first [now apply N1; right | now apply N2; right | now apply N3; right]).
  unfold shown. rewrite (proj2 (ceq_neq _ _)), (proj2 (ceq_neq _ _)), (proj2 (ceq_neq _ _)); auto;
    intros ->; [apply N2 | apply N1 | apply N3]; now left.
Qed.
Lemma escaped_no_lt t : ~ In c_lt (escaped t).
Proof.
  unfold escaped. intros I. apply in_flat_map in I as (c & _ & I). revert I.
  apply (esc_cases (fun c e => ~ In c_lt e)); try (vm_compute; intuition discriminate).
Qed.
Lemma ordinary_free s c : In c markup_chars -> ordinary s = true -> ~ In c s.
Proof.
  intros I. induction s as [|x s IH]; [easy|]. cbn [ordinary]. intros O. apply andb_true_iff in O as [O1 O2].
  intros [->|K]; [|now apply IH]. apply ordinary_char_parts in O1 as (M & _). apply mem_char_iff in I. congruence.
Qed.
Lemma ink_incl s c : In c (ink s) -> In c s.
Proof. unfold ink. intros I. now apply filter_In in I as [I _]. Qed.
Lemma decode_txt named s : html5 named -> ordinary s = true -> decode named (txt s) = ink s.
Proof.
  intros H O. apply decode_escaped; auto; intros I; apply ink_incl in I; revert I; apply ordinary_free; auto; vm_compute; tauto.
Qed.
Lemma ordinary_paragraph s : ordinary s = true -> has_ink s = true -> renders s (p_tag (txt s)).
Proof.
  intros O I. rewrite <- (app_nil_r s). rewrite <- ord_before_nil in O.
  pose proof (ord_open false false [] (close_p true) _ [] _ eq_refl (d_end false true false 0 LNone) (d_end false false false 0 LNone)
    (length s) s (le_n _) O) as K.
  rewrite I in K. rewrite app_nil_r in *. apply doc_renders in K.
  unfold p_tag. cbn [close_p] in K. rewrite !app_assoc in *. now rewrite with_nl_ends in K.
Qed.
Lemma ordinary_blank s : ordinary s = true -> has_ink s = false -> renders s [c_nl].
Proof.
  intros O I. rewrite <- (app_nil_r s). rewrite <- ord_before_nil in O.
  pose proof (ord_open false false [] (close_p true) _ [] _ eq_refl (d_end false true false 0 LNone) (d_end false false false 0 LNone)
    (length s) s (le_n _) O) as K.
  rewrite I in K. destruct K as [K _]. rewrite app_nil_r in *. apply doc_renders in K. exact K.
Qed.

(** ** [pad_code] *)
Lemma pad_code_app a s : ~ In c_lt a -> pad_code (a ++ s) = a ++ pad_code s.
Proof.
  unfold pad_code. induction a as [|c a IH]; intros N; [reflexivity|]. cbn [app].
  rewrite replace_miss; [rewrite IH; [reflexivity|now intros I; apply N; right]|].
  cbn [lit starts_with]. destruct (ceq (N_of_ascii "<") c) eqn:E; [|reflexivity]. apply ceq_eq in E. subst c.
  exfalso. apply N. now left.
Qed.
Lemma pad_code_p_tag x : ~ In c_lt x -> pad_code (p_tag x) = p_tag x.
Proof.
  intros N. unfold p_tag.
  change (lit "<p>" ++ x ++ lit "</p>" ++ [c_nl]) with (c_lt :: (lit "p>" ++ x ++ c_lt :: (lit "/p>" ++ [c_nl]))).
  unfold pad_code. rewrite replace_miss by reflexivity. fold (pad_code (lit "p>" ++ x ++ c_lt :: (lit "/p>" ++ [c_nl]))).
  rewrite !pad_code_app by (auto; vm_compute; intuition discriminate). reflexivity.
Qed.
Lemma pad_code_txt s : pad_code (p_tag (txt s)) = p_tag (txt s).
Proof. apply pad_code_p_tag, escaped_no_lt. Qed.
Lemma doc_para s : ordinary s = true -> has_ink s = true -> forall hd c, doc hd false c 0 LNone s (p_tag (txt s)) (mkF c 0 [] []).
Proof.
  intros O I hd c. rewrite <- ord_before_nil in O.
  pose proof (ord_open hd c [] (close_p true) _ [] _ eq_refl (d_end hd true c 0 LNone) (d_end hd false c 0 LNone)
    (length s) s (le_n _) O) as K.
  rewrite I, app_nil_r in K. exact K.
Qed.
Lemma fin_p_tag x : fin (p_tag x) (mkF false 0 [] []) = p_tag x.
Proof. rewrite fin_plain. destruct (p_tag_ends x) as [z ->]. apply with_nl_ends. Qed.
Lemma with_nl_other h x : x <> c_nl -> with_nl (h ++ [x]) = h ++ [x; c_nl].
Proof.
  intros N. unfold with_nl. destruct (ends_with [c_nl] (h ++ [x])) eqn:E.
  - apply ends_with_iff in E as [z E]. apply app_inj_tail in E as [_ E]. easy.
  - now rewrite <- app_assoc.
Qed.
Lemma with_nl_ul h : with_nl (h ++ lit "</ul>") = h ++ lit "</ul>" ++ [c_nl].
Proof. change (lit "</ul>") with (lit "</ul" ++ [c_gt]). rewrite !app_assoc, with_nl_other by easy. now rewrite <- !app_assoc. Qed.
Lemma with_nl_ol h : with_nl (h ++ lit "</ol>") = h ++ lit "</ol>" ++ [c_nl].
Proof. change (lit "</ol>") with (lit "</ol" ++ [c_gt]). rewrite !app_assoc, with_nl_other by easy. now rewrite <- !app_assoc. Qed.
Lemma gaps_head qs : gaps qs = [] \/ exists r', gaps qs = c_nl :: r'.
Proof. destruct qs as [|q qs]; [now left|right]. eexists. reflexivity. Qed.
Lemma gaps_doc hd c qs : paragraphs (map snd qs) ->
  forall b, doc hd b c 0 LNone (gaps qs) (close_p b ++ p_tags (map snd qs)) (mkF c 0 [] []).
Proof.
  induction qs as [|q qs IH]; cbn [map]; intros F b.
  - cbn [gaps p_tags map concat]. rewrite app_nil_r. apply (d_end hd b c 0 LNone).
  - inversion F as [|? ? P F']; subst. specialize (IH F'). unfold gaps. cbn [map concat]. fold (gaps qs). rewrite <- app_assoc.
    apply d_newlines; [lia | now apply starts_in_para|].
    unfold p_tags. cbn [map concat]. fold (p_tags (map snd qs)). apply para_doc; auto using gaps_head.
Qed.
Lemma gaps_renders p qs : paragraphs (p :: map snd qs) -> renders (p ++ gaps qs) (p_tags (p :: map snd qs)).
Proof.
  intros F. inversion F as [|? ? P F']; subst.
  pose proof (para_doc false false p (gaps qs) _ _ P (gaps_head qs) (gaps_doc false false qs F')) as D.
  apply doc_renders in D.
  change (p_tags (p :: map snd qs)) with (p_tag (txt p) ++ p_tags (map snd qs)).
  destruct (p_tags_ends (p :: map snd qs)) as [E|E]; [discriminate E|].
  change (p_tag (txt p) ++ p_tags (map snd qs)) with ([] ++ p_tags (p :: map snd qs)) in D.
  rewrite (with_nl_app [] _ E) in D. exact D.
Qed.

(** ** Blocks and lines *)
Definition line_block (s h : str) : Prop := forall b r g f, line_end r -> doc false false false 0 LNone r g f ->
  doc false b false 0 LNone (s ++ r) (close_p b ++ h ++ g) f.
Lemma after_line_end qs : line_end (after qs).
Proof. exact (after_head qs). Qed.
Lemma line_block_block s h : s <> [] -> starts_in [c_nl] s = false -> line_block s h -> shown_as_block renders s h.
Proof.
  intros NE S0 L. apply block_shown; auto. intros qs Q. apply (L false); [apply after_line_end|].
  exact (after_doc false false qs Q false).
Qed.
Lemma line_block_line s h : s <> [] -> starts_in [c_nl] s = false -> line_block s h -> shown_as_line renders s h.
Proof.
  intros NE S0 L ps p q qs F. inversion F as [|? ? P F1]; subst. inversion F1 as [|? ? Q F2]; subst.
  apply Forall_app in F2 as [F2 F3].
  assert (D : doc false false false 0 LNone (before ps ++ p ++ [c_nl] ++ s ++ [c_nl] ++ q ++ after qs)
                (p_tags ps ++ p_tag (txt p) ++ h ++ p_tag (txt q) ++ p_tags qs) (mkF false 0 [] [])).
  { apply before_doc; [exact F2 | now apply starts_in_para|].
    apply para_doc; [exact P | right; eexists; reflexivity|]. intros b.
    change (close_p b ++ h ++ p_tag (txt q) ++ p_tags qs) with ([] ++ (close_p b ++ h ++ p_tag (txt q) ++ p_tags qs)).
    apply d_blank; [apply p_newline; now rewrite starts_in_app|].
    apply L; [right; eexists; reflexivity|].
    change (p_tag (txt q) ++ p_tags qs) with ([] ++ (p_tag (txt q) ++ p_tags qs)).
    apply d_blank; [apply p_newline; now apply starts_in_para|].
    apply para_doc; [exact Q | apply after_head | now apply after_doc]. }
  apply doc_renders in D.
  assert (W : with_nl (p_tags ps ++ p_tag (txt p) ++ h ++ p_tag (txt q) ++ p_tags qs) = p_tags ps ++ p_tag (txt p) ++ h ++ p_tag (txt q) ++ p_tags qs).
  { rewrite !app_assoc. destruct (p_tags_ends qs) as [E|E].
    - rewrite E, app_nil_r. apply with_nl_app, p_tag_ends.
    - now apply with_nl_app. }
  now rewrite W in D.
Qed.

(** ** Headings *)
Lemma esc_visible c : is_whitespace c = false -> forallb visible (esc c) = true.
Proof.
  apply (esc_cases (fun c e => is_whitespace c = false -> forallb visible e = true)); try reflexivity.
  intros c' _ _ _ _ _ _ _ _ _ _ _ _ _ _ W. cbn. unfold visible. now rewrite W.
Qed.
Lemma txt_visible s : forallb visible (txt s) = true.
Proof.
  induction s as [|c s IH]; [reflexivity|]. rewrite txt_cons, forallb_app, IH, andb_true_r. unfold show.
  destruct (is_whitespace c) eqn:W; [reflexivity | now apply esc_visible].
Qed.
Lemma drop_visible s : forallb visible s = true -> drop_while is_whitespace s = s.
Proof.
  destruct s as [|c s]; [reflexivity|]. cbn [forallb]. intros H. apply andb_true_iff in H as [H _].
  apply negb_true_iff in H. now apply drop_while_stop.
Qed.
Lemma forallb_rev' f (s : str) : forallb f s = true -> forallb f (rev s) = true.
Proof. rewrite !forallb_forall. intros H x I. apply H. now apply in_rev. Qed.
Lemma trim_visible s : forallb visible s = true -> trim s = s.
Proof.
  intros H. unfold trim, trim_end, trim_end_by, trim_start_by. rewrite (drop_visible s H).
  rewrite drop_visible by now apply forallb_rev'. apply rev_involutive.
Qed.
Lemma blanks_in b c : blanks b -> In c b -> c = c_sp \/ c = c_tab.
Proof. intros B I. apply B in I. cbn in I. intuition. Qed.
(** No custom id in the line. *)
Lemma no_id t e : ~ In c_hash t -> heading_end e -> ~ infix (lit "{#") (t ++ e).
Proof.
  intros N E (x & y & K).
  assert (NB : ~ In c_lbrace e).
  { destruct E as [b B|b k b' B B' K1]; intros I.
    - apply blanks_in in I as [I|I]; auto; discriminate I.
    - rewrite !in_app_iff in I. destruct I as [I|[I|[I|I]]]; try (apply blanks_in in I as [I|I]; auto; discriminate I).
      + destruct I as [I|[]]. discriminate I.
      + apply repeat_spec in I. discriminate I. }
  assert (NH : starts_in [c_hash] e = false).
  { destruct E as [b B|b k b' B B' K1].
    - destruct b as [|z b]; [reflexivity|]. destruct (blanks_in _ z B (or_introl eq_refl)) as [-> | ->]; reflexivity.
    - destruct b as [|z b]; [reflexivity|]. destruct (blanks_in _ z B (or_introl eq_refl)) as [-> | ->]; reflexivity. }
  change (lit "{#" ++ y) with ([c_lbrace] ++ c_hash :: y) in K.
  apply app_eq_app in K as (l & [[-> K]|[-> K]]).
  - destruct l as [|z l]; cbn [app] in K.
    + subst e. apply NB. now left.
    + injection K as Ez K. destruct l as [|z1 l]; cbn [app] in K.
      * subst e. discriminate NH.
      * injection K as Ez1 K. subst z1. apply N. apply in_or_app. right. right. now left.
  - apply NB. rewrite K. apply in_or_app. right. now left.
Qed.
Lemma heading_no_nl t e : no_nl t -> heading_end e -> no_nl (t ++ e).
Proof.
  intros N E I. apply in_app_iff in I as [I|I]; [easy|]. destruct E as [b B|b k b' B B' K1].
  - apply blanks_in in I as [I|I]; auto; discriminate I.
  - rewrite !in_app_iff in I. destruct I as [I|[I|[I|I]]]; try (apply blanks_in in I as [I|I]; auto; discriminate I).
    + destruct I as [I|[]]. discriminate I.
    + apply repeat_spec in I. discriminate I.
Qed.
(** A line whose text [t] has no hash: the text of the heading. *)
Lemma heading_line_ok t e : ~ In c_hash t -> ends_visible t -> heading_end e -> heading_line (t ++ e) t.
Proof.
  intros N V E. destruct E as [b B|b k b' B B' K1].
  - apply hl_open; auto.
    + intros l n ->. destruct n as [|n].
      * destruct V as (t' & x & V & W). apply app_inj_tail in V as [_ <-]. discriminate W.
      * apply N. apply in_or_app. right. right. now left.
    + intros (n & -> & _). destruct n as [|n]; [|apply N; now left].
      destruct V as (t' & x & V & W). apply (app_cons_not_nil _ _ _ V).
  - apply hl_closed; auto. now apply blanks_forall.
Qed.
Lemma heading_block n t e hi : 1 <= n <= 6 -> no_nl t -> ~ In c_hash t -> ends_visible t -> heading_end e ->
  doc true false false 0 LNone t (p_tag hi) (mkF false 0 [] []) ->
  line_block (heading_src n t e) (h_tag n (trim hi)).
Proof.
  intros B NL NH V E D b r g f LE DR. unfold heading_src. cbn [app].
  apply (d_heading false b false 0 n c_sp (t ++ e) (t ++ e) t hi (mkF false 0 [] [])); auto.
  - now left.
  - now apply heading_no_nl.
  - apply ht_plain. left. now apply no_id.
  - now apply heading_line_ok.
Qed.
Lemma heading_src_head n t e : 1 <= n -> heading_src n t e <> [] /\ starts_in [c_nl] (heading_src n t e) = false.
Proof. intros B. unfold heading_src. destruct n as [|n]; [lia|]. now split. Qed.

(** ** Inline constructs *)
Lemma unmarked_free t : unmarked t -> t <> [] /\ forall c, In c star_under -> ~ In c t.
Proof. intros (N & A & B). split; [exact N|]. intros c [<-|[<-|[]]]; assumption. Qed.
Lemma span_piece hd no s h r : span no s h -> starts_in no r = false ->
  starts_in (lit "*_~") r = false -> piece hd r s true h.
Proof.
  intros S0 N R.
  assert (LK : forall cs, incl cs (lit "*_~") -> starts_in cs r = false) by (intros cs I; eapply starts_in_incl; eauto).
  destruct S0 as [d t D U T|d t D U T|d t D U T|t NE T|t u href T U H|u href t D G|t G ND W L|t T C L|n B NE|c W|i I NI].
  - apply unmarked_free in U as [U1 U2]. now apply p_em.
  - apply unmarked_free in U as [U1 U2]. apply p_strong; auto; [|apply LK; intros x; vm_compute; tauto].
    intros x. cbn. intros X. assert (x = d) by intuition. now subst.
  - apply unmarked_free in U as [U1 U2]. apply p_both; auto; [|apply LK; intros x; vm_compute; tauto].
    intros x. cbn. intros X. assert (x = d) by intuition. now subst.
  - apply p_strike; auto. apply LK. intros x; vm_compute; tauto.
  - now apply p_link.
  - now apply p_auto.
  - now apply p_lt_text.
  - now apply p_brackets.
  - apply p_tildes; auto. apply LK. intros x; vm_compute; tauto.
  - destruct (ceq c c_hash) eqn:E.
    + apply ceq_eq in E. subst c. apply (p_escape_hashes hd r 1); auto.
    + apply ceq_neq in E. pose proof (p_escape hd r c E) as P. unfold visible, show in P. rewrite W in P. unfold escaped. cbn [flat_map]. now rewrite app_nil_r.
  - now apply p_noteref.
Qed.
Lemma trail_span no b qs : trail b = true -> starts_in no b = false -> ~ In c_nl no ->
  starts_in no (b ++ after qs) = false /\ starts_in (lit "*_~") (b ++ after qs) = false.
Proof.
  intros T N NL. split.
  - apply (trail_look no no); auto. intros x I. apply in_or_app. now right.
  - apply (trail_look _ no); auto; [|vm_compute; intuition discriminate].
    intros x I. apply in_or_app. left. revert I. vm_compute. tauto.
Qed.
Lemma span_facts no s h : span no s h -> s <> [] /\ starts_in [c_sp; c_tab; c_nl; c_dot] s = false /\ ~ In c_nl no.
Proof.
  intros S0. destruct S0 as [d t D U T|d t D U T|d t D U T|t NE T|t u href T U H|u href t D G|t G ND W L|t T C L|n B NE|c W|i I NI];
    try destruct (ceq c c_hash);
    try (split; [easy|]; split; [|vm_compute; intuition discriminate]; reflexivity);
    try (destruct D as [<-|[<-|[]]]; repeat split; try easy; vm_compute; intuition discriminate).
  destruct n as [|n]; [lia|]. split; [easy|]. split; [reflexivity|easy].
Qed.
Lemma span_shown no s h : span no s h -> shown_in_line renders no s h.
Proof.
  intros S0. pose proof (span_facts _ _ _ S0) as (F1 & F2 & F3). apply line_shown; auto.
  intros b qs T Q N. destruct (trail_span no b qs T N F3) as [N1 N2]. eapply span_piece; eauto.
Qed.
(** ** ... in headings *)
Definition vis_first (h : str) : bool := match h with [] => true | c :: _ => visible c end.
Definition vis_edges (h : str) : bool := vis_first h && vis_first (rev h).
Lemma vis_first_app a b : vis_first a = true -> vis_first b = true -> vis_first (a ++ b) = true.
Proof. destruct a; auto. Qed.
Lemma edges_app a b : vis_edges a = true -> vis_edges b = true -> vis_edges (a ++ b) = true.
Proof.
  unfold vis_edges. rewrite !andb_true_iff. intros [A1 A2] [B1 B2]. rewrite rev_app_distr. split; now apply vis_first_app.
Qed.
Lemma edges_wrap a h b : a <> [] -> b <> [] -> vis_edges a = true -> vis_edges b = true -> vis_edges (a ++ h ++ b) = true.
Proof.
  unfold vis_edges. rewrite !andb_true_iff. intros NA NB [A1 A2] [B1 B2]. rewrite !rev_app_distr. split.
  - destruct a; [easy|exact A1].
  - destruct (rev b) as [|z y] eqn:E; [|exact B2]. apply (f_equal (@rev char)) in E. rewrite rev_involutive in E. easy.
Qed.
Lemma edges_visible h : forallb visible h = true -> vis_edges h = true.
Proof.
  intros H. unfold vis_edges. apply andb_true_iff. split.
  - destruct h as [|c h]; [reflexivity|]. cbn in H. now apply andb_true_iff in H as [H _].
  - apply forallb_rev' in H. destruct (rev h) as [|c z]; [reflexivity|]. cbn in H. now apply andb_true_iff in H as [H _].
Qed.
Lemma drop_first h : vis_first h = true -> drop_while is_whitespace h = h.
Proof. destruct h as [|c h]; [reflexivity|]. intros H. apply negb_true_iff in H. now apply drop_while_stop. Qed.
Lemma trim_edges h : vis_edges h = true -> trim h = h.
Proof.
  unfold vis_edges. rewrite andb_true_iff. intros [A B]. unfold trim, trim_end, trim_end_by, trim_start_by.
  rewrite (drop_first h A), (drop_first _ B). apply rev_involutive.
Qed.
Lemma escaped_app a b : escaped (a ++ b) = escaped a ++ escaped b.
Proof. unfold escaped. apply flat_map_app. Qed.
Lemma edges_first_last h : vis_first h = true -> vis_first (rev h) = true -> vis_edges h = true.
Proof. unfold vis_edges. now intros -> ->. Qed.
Lemma a_tag_edges href t : vis_edges (a_tag href t) = true.
Proof. apply edges_first_last; [reflexivity|]. unfold a_tag. rewrite !rev_app_distr. reflexivity. Qed.
Lemma span_edges no s h : span no s h -> vis_edges h = true.
Proof.
  intros S0. destruct S0 as [d t D U T|d t D U T|d t D U T|t NE T|t u href T U H|u href t D G|t G ND W L|t T C L|n B NE|c W|i I NI].
  - now apply edges_wrap.
  - now apply edges_wrap.
  - now apply edges_wrap.
  - now apply edges_wrap.
  - apply a_tag_edges.
  - apply a_tag_edges.
  - rewrite !escaped_app. now apply edges_wrap.
  - rewrite !escaped_app. now apply edges_wrap.
  - apply edges_visible. clear. induction n as [|n IH]; [reflexivity|]. exact IH.
  - apply edges_visible. unfold escaped. cbn [flat_map]. rewrite app_nil_r. now apply esc_visible.
  - apply edges_first_last; reflexivity || (unfold noteref_tag; rewrite !rev_app_distr; reflexivity).
Qed.
(** ** At the end of the document *)
Lemma line_shown_end s h : s <> [] -> starts_in [c_sp; c_tab; c_nl; c_dot] s = false -> piece false [] s true h ->
  forall ps a, paragraphs ps -> lead a = true -> renders (before ps ++ a ++ s) (p_tags ps ++ p_tag (txt a ++ h)).
Proof.
  intros NE S0 P ps a HP A. destruct (lead_before a s [] A NE S0) as [O S1]. rewrite app_nil_r in O, S1.
  assert (D : doc false false false 0 LNone (before ps ++ a ++ s) (p_tags ps ++ p_tag (txt a ++ h)) (mkF false 0 [] [])).
  { apply before_doc; [exact HP| |].
    - rewrite <- (app_nil_r s). now apply starts_lead.
    - unfold p_tag. rewrite <- !app_assoc. apply lead_doc; auto.
      + rewrite <- (app_nil_r s). apply d_more; [exact P | apply (d_end false true false 0 LNone)].
      + rewrite <- (app_nil_r s). apply (d_open false false 0 LNone s [] h _ _ P). apply (d_end false true false 0 LNone). }
  apply doc_renders in D. rewrite with_nl_app in D by apply p_tag_ends. exact D.
Qed.
(** ** Headings with code, or with a custom id *)
Lemma heading_code_block n t e hi fi : 1 <= n <= 6 -> no_nl t -> ~ In c_hash t -> ends_visible t -> heading_end e ->
  doc true false false 0 LNone t hi fi -> f_code fi = true ->
  line_block (heading_src n t e) (h_tag n []).
Proof.
  intros B NL NH V E D F b r g f LE DR. unfold heading_src. cbn [app].
  apply (d_heading_code false b false 0 n c_sp (t ++ e) (t ++ e) t hi fi); auto.
  - now left.
  - now apply heading_no_nl.
  - apply ht_plain. left. now apply no_id.
  - now apply heading_line_ok.
Qed.
Lemma heading_id_block n a i : 1 <= n <= 6 -> no_nl a -> ~ In c_lbrace a -> heading_ordinary i ->
  line_block (crep n c_hash ++ [c_sp] ++ a ++ lit "{#" ++ i ++ lit "}") (h_tag n (txt i)).
Proof.
  intros B NA LA (O & NI & NH & V) b r g f LE DR.
  assert (HI : has_ink i = true).
  { destruct V as (t' & x & -> & W). unfold has_ink. rewrite existsb_app. cbn. unfold visible at 2. rewrite W. apply orb_true_r. }
  rewrite <- (trim_visible (txt i)) by apply txt_visible.
  apply (d_heading false b false 0 n c_sp (a ++ lit "{#" ++ i ++ lit "}") i i (txt i) (mkF false 0 [] [])); auto.
  - now left.
  - unfold no_nl. rewrite !in_app_iff. intros [I|[I|[I|I]]]; [easy| |easy|]; revert I; vm_compute; intuition discriminate.
  - now apply ht_id.
  - rewrite <- (app_nil_r i) at 1. apply heading_line_ok; auto. apply he_blanks; intros x [].
  - now apply doc_para.
Qed.
Lemma heading_ordinary_block n t e : 1 <= n <= 6 -> heading_ordinary t -> heading_end e ->
  line_block (heading_src n t e) (h_tag n (txt t)).
Proof.
  intros B (O & NI & NH & V) E.
  assert (HI : has_ink t = true).
  { destruct V as (t' & x & -> & W). unfold has_ink. rewrite existsb_app. cbn. unfold visible at 2. rewrite W. apply orb_true_r. }
  rewrite <- (trim_visible (txt t)) by apply txt_visible.
  apply heading_block; auto. now apply doc_para.
Qed.
(** ** Code spans *)
Lemma tail_doc c b qs : trail b = true -> paragraphs qs ->
  doc false false c 0 LNone (b ++ after qs) ((if has_ink b then p_tag (txt b) else []) ++ p_tags qs) (mkF c 0 [] []).
Proof.
  intros T Q.
  assert (S3 : starts_in [c_tab; c_dot] (after qs) = false) by (destruct (after_head qs) as [->|[r' ->]]; reflexivity).
  pose proof (ord_open false c (after qs) _ _ _ _ S3 (after_doc false c qs Q true) (after_doc false c qs Q false) (length b) b (le_n _) (ord_after b qs T)) as K.
  destruct (has_ink b).
  - unfold p_tag. rewrite <- !app_assoc. exact K.
  - destruct K as [K _]. exact K.
Qed.
Lemma fin_code h : fin h (mkF true 0 [] []) = with_nl h ++ lit "</code></pre>".
Proof. unfold fin. cbn [f_quote f_close f_code f_notes times repeat concat notes_html]. now rewrite !app_nil_r. Qed.
Lemma doc_renders_code s h : doc false false false 0 LNone s h (mkF true 0 [] []) -> renders s (with_nl h ++ lit "</code></pre>").
Proof. intros D. apply displays_renders. exists h, (mkF true 0 [] []). split; [exact D | symmetry; apply fin_code]. Qed.
Lemma code_span_head s t : code_span s t -> s <> [] /\ starts_in [c_sp; c_tab; c_nl; c_dot] s = false.
Proof. intros [n b B]. destruct n as [|n]; [lia|]. now split. Qed.
Lemma code_line s t ps a b qs : code_span s t -> paragraphs ps -> paragraphs qs -> lead a = true -> trail b = true ->
  renders (before ps ++ (a ++ s ++ b) ++ after qs)
    (with_nl (p_tags ps ++
       (if has_ink a then lit "<p>" ++ txt a ++ lit "<pre><code>" ++ escaped t ++ txt b ++ lit "</p>" ++ [c_nl]
        else lit "<pre><code>" ++ escaped t ++ (if has_ink b then p_tag (txt b) else []))
       ++ p_tags qs) ++ lit "</code></pre>").
Proof.
  intros C P Q A B. destruct (code_span_head _ _ C) as [C1 C2].
  apply doc_renders_code. rewrite <- !app_assoc. apply before_doc; [exact P | now apply starts_lead|].
  destruct (lead_before a s (b ++ after qs) A C1 C2) as [O S1].
  assert (D : doc false true false 0 LNone (s ++ b ++ after qs) (lit "<pre><code>" ++ escaped t ++ txt b ++ close_p true ++ p_tags qs) (mkF true 0 [] [])).
  { apply (d_code false true false 0 s t (b ++ after qs)); [exact C|]. now apply trail_doc. }
  assert (D0 : doc false false false 0 LNone (s ++ b ++ after qs)
                 (lit "<pre><code>" ++ escaped t ++ (if has_ink b then p_tag (txt b) else []) ++ p_tags qs) (mkF true 0 [] [])).
  { apply (d_code false false false 0 s t (b ++ after qs)); [exact C|]. now apply tail_doc. }
  pose proof (ord_open false false _ _ _ _ _ S1 D D0 (length a) a (le_n _) O) as K.
  destruct (has_ink a).
  - rewrite <- !app_assoc. cbn [close_p] in K. rewrite <- !app_assoc in K. exact K.
  - destruct K as [K _]. rewrite <- !app_assoc. exact K.
Qed.
Lemma ord_space a r : ordinary (a ++ [c_sp]) = true -> ord_before (c_sp :: r) a = true.
Proof.
  induction a as [|c a IH]; intros O; [reflexivity|]. cbn [app ordinary] in O. apply andb_true_iff in O as [OC O].
  cbn [ord_before]. rewrite IH by exact O. rewrite andb_true_r.
  change (c_sp :: r) with ([c_sp] ++ r). rewrite app_assoc. apply ordinary_app_char; [exact OC|now destruct a|].
  destruct a as [|x [|y a]]; [reflexivity|reflexivity|]. reflexivity.
Qed.

(** ** Text with inline constructs *)
Definition ended (r : str) : Prop := r = [] \/ exists r', r = c_nl :: r'.
Lemma starts_ended cs t r : starts_in cs t = false -> ended r -> ~ In c_nl cs -> starts_in cs (t ++ r) = false.
Proof.
  intros S0 E N. destruct t as [|x t]; [|exact S0]. destruct E as [->|[r' ->]]; [reflexivity|]. cbn.
  destruct (mem_char c_nl cs) eqn:K; [apply mem_char_iff in K; easy|reflexivity].
Qed.
Lemma ord_trail b r : trail b = true -> ended r -> ord_before r b = true.
Proof. intros T E. apply trail_parts in T as [O S0]. apply ord_ext; auto; destruct E as [->|[r' ->]]; auto; discriminate. Qed.
Lemma ord_span a s t r : ordinary a = true -> starts_in [c_bang] (rev a) = false -> s <> [] ->
  starts_in [c_sp; c_tab; c_nl; c_dot] s = false -> ord_before (s ++ t ++ r) a = true /\ starts_in [c_tab; c_dot] (s ++ t ++ r) = false.
Proof.
  intros O B NE S0.
  assert (SI : forall cs, incl cs [c_sp; c_tab; c_nl; c_dot] -> starts_in cs (s ++ t ++ r) = false).
  { intros cs I. rewrite starts_in_app by exact NE. eapply starts_in_incl; eauto. }
  split; [|apply SI; intros y; cbn; tauto]. apply ord_ext; auto.
  - apply SI. intros y; cbn; tauto.
  - rewrite SI; [discriminate|]. intros y; cbn; tauto.
Qed.
Lemma span_ended hd no s h t r : span no s h -> starts_in (no ++ lit "*_~") t = false -> ended r -> piece hd (t ++ r) s true h.
Proof.
  intros S0 N E. pose proof (span_facts _ _ _ S0) as (_ & _ & F3).
  eapply span_piece; eauto; apply starts_ended; auto.
  - eapply starts_in_incl; [|exact N]. intros x I. apply in_or_app. now left.
  - eapply starts_in_incl; [|exact N]. intros x I. apply in_or_app. now right.
  - vm_compute. intuition discriminate.
Qed.
Lemma inline_more hd c q t h : inline t h -> forall r g f, ended r ->
  doc hd true c q LNone r g f -> doc hd true c q LNone (t ++ r) (h ++ g) f.
Proof.
  induction 1 as [b T|no a s t h ht O B S0 N I IH]; intros r g f E D.
  - apply (ord_more hd c q r g f) with (n := length b); auto using ord_trail.
    destruct E as [->|[r' ->]]; reflexivity.
  - pose proof (span_facts _ _ _ S0) as (F1 & F2 & F3). rewrite <- !app_assoc.
    destruct (ord_span a s t r O B F1 F2) as [OB S1].
    apply (ord_more hd c q (s ++ t ++ r) (h ++ ht ++ g) f) with (n := length a); auto.
    apply d_more; [now apply (span_ended hd no)|]. now apply IH.
Qed.
Lemma has_ink_app' a b : has_ink (a ++ b) = has_ink a || has_ink b.
Proof. apply existsb_app. Qed.
Lemma inline_open hd c q t h : inline t h -> has_ink t = true -> forall r g f, ended r ->
  doc hd true c 0 LNone r g f -> (exists g' f', doc hd false c q LNone r g' f') ->
  doc hd false c q LNone (t ++ r) (times q (lit "</blockquote>") ++ lit "<p>" ++ h ++ g) f.
Proof.
  intros IN HI r g f E D D0.
  destruct D0 as (g' & f' & D0).
  destruct IN as [b T|no a s t h ht O B S0 N I].
  - assert (S3 : starts_in [c_tab; c_dot] r = false) by (destruct E as [->|[r' ->]]; reflexivity).
    pose proof (ord_openq hd c q r g f _ _ S3 D D0 (length b) b (le_n _) (ord_trail b r T E)) as K. now rewrite HI in K.
  - pose proof (span_facts _ _ _ S0) as (F1 & F2 & F3). rewrite <- !app_assoc.
    destruct (ord_span a s t r O B F1 F2) as [OB S1].
    pose proof (inline_more hd c 0 t ht I r g f E D) as IM.
    pose proof (span_ended hd no s h t r S0 N E) as P.
    pose proof (d_more hd c 0 s (t ++ r) h _ f P IM) as D1.
    pose proof (d_open hd c q LNone s (t ++ r) h _ f P IM) as D2.
    pose proof (ord_openq hd c q (s ++ t ++ r) _ _ _ _ S1 D1 D2 (length a) a (le_n _) OB) as K.
    destruct (has_ink a); [exact K|]. destruct K as [K ->]. exact K.
Qed.
Lemma para_doc' hd c p hp r h f : para p hp -> ended r ->
  (forall b, doc hd b c 0 LNone r (close_p b ++ h) f) -> doc hd false c 0 LNone (p ++ r) (p_tag hp ++ h) f.
Proof.
  intros (I & HI & S0) E D. unfold p_tag. rewrite <- !app_assoc.
  apply (inline_open hd c 0 p hp I HI r _ f E).
  - specialize (D true). cbn [close_p] in D. now rewrite <- app_assoc in D.
  - specialize (D false). eauto.
Qed.
Lemma inline_paragraph p : paragraph p = true -> para p (txt p).
Proof.
  intros P. apply paragraph_parts in P as (O & I & S1 & S2). split; [|now split]. apply in_end. unfold trail. now rewrite O, S2.
Qed.
Definition pgaps (qs : list (nat * (str * str))) : str := gaps (map (fun q => (fst q, fst (snd q))) qs).
Definition ptags (ps : list (str * str)) : str := concat (map (fun p => p_tag (snd p)) ps).
Lemma starts_para' p hp r : para p hp -> starts_in [c_nl] (p ++ r) = false.
Proof. intros (_ & I & S1). rewrite starts_in_app; [exact S1|]. now apply has_ink_cons. Qed.
Lemma pgaps_doc hd c qs : paras (map snd qs) ->
  forall b, doc hd b c 0 LNone (pgaps qs) (close_p b ++ ptags (map snd qs)) (mkF c 0 [] []).
Proof.
  induction qs as [|q qs IH]; cbn [map]; intros F b.
  - cbn [pgaps gaps ptags map concat]. rewrite app_nil_r. apply (d_end hd b c 0 LNone).
  - inversion F as [|? ? P F']; subst. specialize (IH F'). unfold pgaps, gaps. cbn [map concat fst snd]. rewrite <- app_assoc.
    fold (gaps (map (fun q => (fst q, fst (snd q))) qs)). fold (pgaps qs).
    apply d_newlines; [lia | now apply (starts_para' _ (snd (snd q)))|].
    unfold ptags. cbn [map concat]. fold (ptags (map snd qs)). apply para_doc'; auto. apply gaps_head.
Qed.
Lemma pgaps_renders p hp qs : para p hp -> paras (map snd qs) -> renders (p ++ pgaps qs) (p_tag hp ++ ptags (map snd qs)).
Proof.
  intros P F. pose proof (para_doc' false false p hp (pgaps qs) _ _ P (gaps_head _) (pgaps_doc false false qs F)) as D.
  apply doc_renders in D.
  assert (W : with_nl (p_tag hp ++ ptags (map snd qs)) = p_tag hp ++ ptags (map snd qs)).
  { clear. generalize (map snd qs). intros l. destruct l as [|x l] using rev_ind.
    - unfold ptags. cbn [map concat]. rewrite app_nil_r. exact (with_nl_app [] _ (p_tag_ends hp)).
    - unfold ptags. rewrite map_app, concat_app. cbn [map concat]. rewrite app_nil_r, app_assoc. apply with_nl_app, p_tag_ends. }
  now rewrite W in D.
Qed.
Lemma inline_edges t h : inline t h -> vis_edges h = true.
Proof.
  induction 1 as [b T|no a s t h ht O B S0 N I IH]; [apply edges_visible, txt_visible|].
  apply edges_app; [apply edges_visible, txt_visible|]. apply edges_app; [exact (span_edges _ _ _ S0) | exact IH].
Qed.
Lemma ends_visible_ink t : ends_visible t -> has_ink t = true.
Proof. intros (t' & x & -> & W). rewrite has_ink_app'. cbn. unfold visible. rewrite W. apply orb_true_r. Qed.
Lemma inline_doc hd c t h : inline t h -> has_ink t = true -> doc hd false c 0 LNone t (p_tag h) (mkF c 0 [] []).
Proof.
  intros I HI. rewrite <- (app_nil_r t). unfold p_tag.
  apply (inline_open hd c 0 t h I HI [] _ _ (or_introl eq_refl) (d_end hd true c 0 LNone)).
  exists (close_p false), (mkF c 0 [] []). apply (d_end hd false c 0 LNone).
Qed.
Lemma inline_heading n t h e : inline t h -> 1 <= n <= 6 -> no_nl t -> ~ In c_hash t -> ends_visible t -> heading_end e ->
  line_block (heading_src n t e) (h_tag n h).
Proof.
  intros I N NL NH V E. rewrite <- (trim_edges h) by (eapply inline_edges; eauto).
  apply heading_block; auto. apply inline_doc; auto. now apply ends_visible_ink.
Qed.
