(** * BlockFacts: lists, quotes, tables, collapsible sections, footnotes. *)
From Coq Require Import Ascii String.
From Verif Require Import Strings StringsFacts Parser SanitizeFacts LexMono Markdown MarkdownFacts MarkdownBlocks MarkdownSound
  HtmlFacts Decode DecodeFacts SpecText TextFacts SpecBlocks.
Open Scope list_scope.

Lemma lines_cons l ls : ls <> [] -> lines (l :: ls) = l ++ [c_nl] ++ lines ls.
Proof. now destruct ls. Qed.
Lemma map_nil {A B} (f : A -> B) l : l <> [] -> map f l <> [].
Proof. now destruct l. Qed.

(** ** Trailing line breaks of a list *)
Lemma list_end hd b c q l k : l <> LNone -> doc hd b c q l (crep k c_nl) (close_p b) (mkF c q (list_close l) []).
Proof.
  intros N. destruct k as [|k]; [apply (d_end hd b c q l)|].
  rewrite <- (app_nil_r (crep (S k) c_nl)). apply (d_list_newlines hd b c q l (S k)); [exact N|lia|reflexivity|apply d_end].
Qed.
Lemma crep_line_end k r : r = [] \/ 1 <= k -> line_end (crep k c_nl ++ r).
Proof. intros [->|H]; destruct k as [|k]; [now left|right|lia|right]; eexists; reflexivity. Qed.

(** ** Ordered lists *)
Lemma digit_not_nl d r : is_digit d = true -> starts_in [c_nl] (d :: r) = false.
Proof. intros D. apply digit_in in D. repeat (destruct D as [<-|D]; [reflexivity|]). destruct D. Qed.
(** [D]: what follows the list. *)
Lemma ol_doc hd b c q r h f is : ol_items is -> line_end r -> doc hd b c q LOl r h f ->
  forall l, l = LNone \/ l = LOl ->
  doc hd b c q l (lines (map ol_line is) ++ r) (list_move l LOl ++ concat (map (fun i => ol_li (snd i)) is) ++ h) f.
Proof.
  intros [NE F] LE D. induction F as [|i is [D1 N1] F IH]; [easy|]. intros l L. cbn [map concat].
  destruct is as [|i2 is].
  - cbn [map concat lines]. rewrite app_nil_r. apply d_ol; auto.
  - rewrite lines_cons by easy. remember (i2 :: is) as js eqn:EJ.
    rewrite <- !app_assoc. apply (d_ol hd b c q l (fst i) (snd i) ([c_nl] ++ lines (map ol_line js) ++ r)); auto.
    + right. eexists. reflexivity.
    + apply (d_list_newlines hd b c q LOl 1); [easy|lia| |].
      * subst js. inversion F as [|? ? [D2 _] _]; subst. cbn [map]. destruct is; apply (digit_not_nl _ _ D2).
      * assert (NJ : js <> []) by (subst js; easy). exact (IH NJ LOl (or_intror eq_refl)).
Qed.
Lemma ol_head is r : ol_items is -> starts_in [c_nl] (lines (map ol_line is) ++ r) = false.
Proof.
  intros [NE F]. destruct F as [|i is [D _] F]; [easy|]. cbn [map]. destruct is; apply (digit_not_nl _ _ D).
Qed.
Lemma fin_ol h : fin h (mkF false 0 (lit "</ol>") []) = h ++ lit "</ol>" ++ [c_nl].
Proof. unfold fin. cbn [f_quote f_close f_code f_notes times repeat concat notes_html app]. now rewrite !app_nil_r, with_nl_ol. Qed.
Lemma fin_ul h : fin h (mkF false 0 (lit "</ul>") []) = h ++ lit "</ul>" ++ [c_nl].
Proof. unfold fin. cbn [f_quote f_close f_code f_notes times repeat concat notes_html app]. now rewrite !app_nil_r, with_nl_ul. Qed.
Lemma ol_shown ps is k : paragraphs ps -> ol_items is ->
  renders (before ps ++ lines (map ol_line is) ++ crep k c_nl) (p_tags ps ++ ol_tag (map (fun i => escaped (snd i)) is)).
Proof.
  intros P I.
  pose proof (ol_doc false false false 0 (crep k c_nl) _ _ is I (ltac:(rewrite <- (app_nil_r (crep k c_nl)); apply crep_line_end; now left))
    (list_end false false false 0 LOl k ltac:(easy)) LNone (or_introl eq_refl)) as D.
  apply (before_doc _ _ ps) in D; auto using ol_head. apply displays_renders. eexists _, _. split; [exact D|].
  rewrite fin_ol. unfold ol_tag. rewrite map_map. cbn [list_move list_open close_p]. rewrite app_nil_r, <- !app_assoc. reflexivity.
Qed.
(** A paragraph after the list: its first character stands inside the list. *)
Definition opens_plain (t : str) : Prop := exists x y t', t = x :: y :: t' /\ plain x = true /\ plain y = true /\ visible x = true /\ visible y = true.
Lemma plain_not_nl c r : plain c = true -> starts_in [c_nl] (c :: r) = false.
Proof. unfold plain. intros H. cbn. destruct (ceq c c_nl) eqn:E; [|reflexivity]. apply ceq_eq in E. subst c. discriminate H. Qed.
Lemma list_then_text c q l k x y t qs : l <> LNone -> plain x = true -> plain y = true -> visible x = true -> visible y = true ->
  trail t = true -> paragraphs qs ->
  doc false false c q l (crep k c_nl ++ (x :: y :: t) ++ after qs)
    (times q (lit "</blockquote>") ++ lit "<p>" ++ esc x ++ list_close l ++ [c_nl] ++ esc y ++ txt t ++ lit "</p>" ++ [c_nl] ++ p_tags qs) (mkF c 0 [] []).
Proof.
  intros L X Y VX VY T Q.
  assert (D0 : doc false false c q l ((x :: y :: t) ++ after qs)
    (times q (lit "</blockquote>") ++ lit "<p>" ++ esc x ++ list_close l ++ [c_nl] ++ esc y ++ txt t ++ lit "</p>" ++ [c_nl] ++ p_tags qs) (mkF c 0 [] [])).
  2: { destruct k as [|k]; [exact D0|]. apply d_list_newlines; auto; [lia|]. cbn [app]. now apply plain_not_nl. }
  assert (SX : forall z, visible z = true -> show z = esc z).
  { intros z V. unfold show, visible in *. destruct (is_whitespace z); [discriminate|reflexivity]. }
  change ((x :: y :: t) ++ after qs) with ([x] ++ [y] ++ t ++ after qs).
  apply (d_open false c q l). { rewrite <- VX at 1. rewrite <- (SX x VX). now apply p_char. }
  apply (d_more_list false c 0 l); auto. { rewrite <- VY at 1. rewrite <- (SX y VY). now apply p_char. }
  pose proof (trail_doc false c t qs T Q) as D. cbn [close_p] in D. rewrite <- app_assoc in D. exact D.
Qed.
Lemma ol_then_text ps is k x y t qs : paragraphs ps -> ol_items is -> 1 <= k -> plain x = true -> plain y = true ->
  visible x = true -> visible y = true -> trail t = true -> paragraphs qs ->
  renders (before ps ++ lines (map ol_line is) ++ crep k c_nl ++ (x :: y :: t) ++ after qs)
    (p_tags ps ++ lit "<ol>" ++ [c_nl] ++ concat (map (fun i => li_tag (escaped (snd i))) is)
     ++ lit "<p>" ++ esc x ++ lit "</ol>" ++ [c_nl] ++ esc y ++ txt t ++ lit "</p>" ++ [c_nl] ++ p_tags qs).
Proof.
  intros P I K X Y VX VY T Q.
  pose proof (ol_doc false false false 0 (crep k c_nl ++ (x :: y :: t) ++ after qs) _ _ is I (crep_line_end k _ (or_intror K))
    (list_then_text false 0 LOl k x y t qs ltac:(easy) X Y VX VY T Q) LNone (or_introl eq_refl)) as D.
  apply (before_doc _ _ ps) in D; auto using ol_head. apply doc_renders in D.
  match type of D with renders _ (with_nl ?h) => assert (W : with_nl h = h) end.
  { rewrite !(app_assoc _ _ ([c_nl] ++ p_tags qs)). destruct (p_tags_ends qs) as [->|[z ->]].
    - rewrite !app_assoc, app_nil_r. apply with_nl_ends.
    - rewrite !app_assoc. apply with_nl_ends. }
  rewrite W in D. cbn [times repeat concat app list_close list_move list_open] in D.
  cbn [app]. rewrite <- !app_assoc in D. exact D.
Qed.

(** Numbers of more than one digit: all but the last digit are text. *)
Lemma digits_more hd c q ds r h f : forallb is_digit ds = true -> (exists d r', r = d :: r' /\ is_digit d = true) ->
  doc hd true c q LNone r h f -> doc hd true c q LNone (ds ++ r) (ds ++ h) f.
Proof.
  intros DS (d & r' & -> & DR) D. induction ds as [|x ds IH]; [exact D|]. cbn in DS. apply andb_true_iff in DS as [DX DS].
  specialize (IH DS). change ((x :: ds) ++ d :: r') with ([x] ++ ds ++ d :: r'). change ((x :: ds) ++ h) with ([x] ++ ds ++ h).
  apply d_more; [|exact IH]. apply p_digit; auto.
  assert (K : forall e z, is_digit e = true -> starts_in [c_dot] (e :: z) = false).
  { intros e z E. apply digit_in in E. repeat (destruct E as [<-|E]; [reflexivity|]). destruct E. }
  destruct ds as [|y ds]; [now apply K|]. cbn in DS. apply andb_true_iff in DS as [DY _]. now apply K.
Qed.
Lemma long_number ps x ds d t : paragraphs ps -> forallb is_digit (x :: ds) = true -> is_digit d = true -> no_nl t ->
  renders (before ps ++ (x :: ds) ++ d :: lit ". " ++ t)
    (p_tags ps ++ lit "<p>" ++ (x :: ds) ++ lit "<ol>" ++ [c_nl] ++ li_tag (escaped t) ++ lit "</p>" ++ [c_nl] ++ lit "</ol>" ++ [c_nl]).
Proof.
  intros P DS DD N. cbn in DS. apply andb_true_iff in DS as [DX DS].
  assert (D1 : doc false true false 0 LNone (d :: lit ". " ++ t) ((lit "<ol>" ++ [c_nl]) ++ ol_li t ++ close_p true) (mkF false 0 (lit "</ol>") [])).
  { rewrite <- (app_nil_r (d :: lit ". " ++ t)). apply (d_ol false true false 0 LNone d t []); auto; [now left|]. apply (d_end false true false 0 LOl). }
  pose proof (digits_more false false 0 ds _ _ _ DS (ex_intro _ d (ex_intro _ _ (conj eq_refl DD))) D1) as D2.
  assert (K : forall e z, is_digit e = true -> starts_in [c_dot] (e :: z) = false).
  { intros e z E. apply digit_in in E. repeat (destruct E as [<-|E]; [reflexivity|]). destruct E. }
  assert (D3 : doc false false false 0 LNone ([x] ++ ds ++ d :: lit ". " ++ t)
    (times 0 (lit "</blockquote>") ++ lit "<p>" ++ [x] ++ ds ++ (lit "<ol>" ++ [c_nl]) ++ ol_li t ++ close_p true) (mkF false 0 (lit "</ol>") [])).
  { apply d_open; [|exact D2]. apply p_digit; auto. destruct ds as [|y ds]; [now apply K|]. cbn in DS. apply andb_true_iff in DS as [DY _]. now apply K. }
  apply (before_doc _ _ ps) in D3; auto; [|exact (digit_not_nl x _ DX)].
  apply displays_renders. eexists _, _. split; [exact D3|]. rewrite fin_ol. cbn [times repeat concat close_p]. repeat (rewrite <- ?app_assoc; cbn [app]). reflexivity.
Qed.

(** ** Replacing what does not occur *)
Lemma replace_none p r s : p <> [] -> ~ infix p s -> replace p r s = s.
Proof.
  intros NE. induction s as [|c s IH]; intros N; [reflexivity|]. rewrite replace_miss.
  - rewrite IH; auto. intros I. apply N. now apply infix_cons.
  - destruct (starts_with p (c :: s)) eqn:E; [|reflexivity]. exfalso. apply N. apply starts_with_iff in E as [y ->]. exists [], y. reflexivity.
Qed.
(** ** Occurrences of a tag: its first character occurs in it only once. *)
Lemma occ_app z p a b : ~ In z p -> b = [] \/ starts_in [z] b = true ->
  occurrences (z :: p) (a ++ b) = occurrences (z :: p) a + occurrences (z :: p) b.
Proof.
  intros N B. induction a as [|c a IH]; [reflexivity|]. cbn [app occurrences]. rewrite IH, <- Nat.add_assoc. f_equal.
  assert (E : starts_with (z :: p) (c :: a ++ b) = starts_with (z :: p) (c :: a)); [|now rewrite E].
  cbn [starts_with]. f_equal. clear IH. revert a. induction p as [|x p IHp]; intros a; [reflexivity|].
  destruct a as [|y a]; cbn [app starts_with].
  - destruct B as [->|B]; [reflexivity|]. destruct b as [|y b]; [reflexivity|]. cbn in B |- *. rewrite orb_false_r in B. apply ceq_eq in B. subst y.
    destruct (ceq x z) eqn:E; [apply ceq_eq in E; subst x; exfalso; apply N; now left|]. reflexivity.
  - f_equal. apply IHp. intros I. apply N. now right.
Qed.
Lemma occ_none z p a : ~ In z a -> occurrences (z :: p) a = 0.
Proof.
  induction a as [|c a IH]; intros N; [reflexivity|]. cbn [occurrences starts_with]. rewrite IH by (intros I; apply N; now right).
  destruct (ceq z c) eqn:E; [|reflexivity]. apply ceq_eq in E. subst. exfalso. apply N. now left.
Qed.
Lemma occ_infix p s : p <> [] -> occurrences p s = 0 <-> ~ infix p s.
Proof.
  intros NE. induction s as [|c s IH].
  - split; [|reflexivity]. intros _ (x & y & E). symmetry in E. apply app_eq_nil in E as [_ E]. apply app_eq_nil in E as [E _]. easy.
  - cbn [occurrences]. destruct (starts_with p (c :: s)) eqn:E.
    + split; [discriminate|]. intros N. exfalso. apply N. apply starts_with_iff in E as [y ->]. exists [], y. reflexivity.
    + cbn [Nat.add]. rewrite IH. split; intros N I; apply N; [|now apply infix_cons]. destruct I as (x & y & I). destruct x as [|x0 x].
      * exfalso. assert (K : starts_with p (c :: s) = true) by (apply starts_with_iff; exists y; exact I). congruence.
      * injection I as _ I. exists x, y. exact I.
Qed.
Lemma pad_code_none h : ~ infix (lit "<pre>") h -> pad_code (p_tag h) = p_tag h.
Proof.
  intros N. unfold pad_code. apply replace_none; [easy|]. intros I. apply (infix_app_l (lit "<pre>") (lit "<code>")) in I. revert I.
  apply occ_infix; [easy|]. apply occ_infix in N; [|easy]. unfold p_tag.
  change (lit "<pre>") with (c_lt :: lit "pre>") in N |- *.
  transitivity (occurrences (c_lt :: lit "pre>") (h ++ lit "</p>" ++ [c_nl])); [reflexivity|].
  rewrite occ_app, N; [reflexivity|vm_compute; intuition discriminate|now right].
Qed.

(** ** Bullet lists *)
Lemma trim_sp0 t : starts_in [c_sp] t = false -> trim_start_by (ceq c_sp) t = t.
Proof.
  intros H. unfold trim_start_by. destruct t as [|x t]; [reflexivity|]. cbn [drop_while]. destruct (ceq c_sp x) eqn:E; [|reflexivity].
  apply ceq_eq in E. subst x. discriminate H.
Qed.
Lemma trim_sp t : starts_in [c_sp] t = false -> trim_start_by (ceq c_sp) (c_sp :: t) = t.
Proof. exact (trim_sp0 t). Qed.
(** What may follow an item: line breaks, or another item (or text) on the next line. *)
Definition item_end (r : str) : Prop := exists k r', r = crep k c_nl ++ r' /\ starts_in [c_sp; c_tab; c_nl] r' = false /\ (r' = [] \/ 1 <= k).
Lemma item_end_ok r : item_end r -> line_end r /\ no_continuation r.
Proof.
  intros (k & r' & -> & H & E). split; [now apply crep_line_end|].
  assert (SI : forall x z, In x [c_sp; c_tab; c_nl] -> r' <> x :: z).
  { intros x z I ->. apply (starts_in_incl [c_sp; c_tab; c_nl] [x]) in H; [|intros y [<-|[]]; exact I]. cbn in H. now rewrite (proj2 (ceq_eq x x) eq_refl) in H. }
  destruct k as [|[|[|k]]]; repeat split; intros x; cbn; try discriminate; intros E0; try (destruct E as [E|E]; [subst r'; discriminate|lia]);
  try injection E0 as E0; try discriminate; try (eapply SI; [|exact E0]; vm_compute; tauto).
Qed.
Lemma item_end_crep k : item_end (crep k c_nl).
Proof. exists k, []. rewrite app_nil_r. auto. Qed.
Lemma item_end_next r : starts_in [c_sp; c_tab; c_nl] r = false -> item_end (c_nl :: r).
Proof. intros H. exists 1, r. auto. Qed.
Lemma after_nl_crep k r : starts_in [c_nl] r = false -> after_nl (crep k c_nl ++ r) = crep (pred k) c_nl ++ r.
Proof. intros H. destruct k as [|k]; [|reflexivity]. destruct r as [|x r]; [reflexivity|]. cbn in H. rewrite orb_false_r in H. cbn [crep repeat app after_nl pred]. now rewrite H. Qed.
Lemma ul_item hd b c q l i r h f : In (fst (fst i)) bullets -> item_text (snd (fst i)) (snd i) -> item_end r ->
  l = LNone \/ l = LUl -> doc hd b c q LUl (after_nl r) h f ->
  doc hd b c q l (ul_line i ++ r) (list_move l LUl ++ li_tag (p_tag (snd i)) ++ h) f.
Proof.
  destruct i as [[m t] g]. cbn [fst snd]. intros M (I & HI & N & S0 & B & NC) E L D. unfold ul_line. cbn [fst snd].
  apply item_end_ok in E as [LE NO].
  pose proof (inline_doc false false t g I HI) as DI.
  assert (U : li_tag (p_tag g) = ul_li (fin (p_tag g) (mkF false 0 [] []))).
  { unfold ul_li. now rewrite fin_p_tag, pad_code_none by exact NC. }
  rewrite U.
  assert (N' : no_nl (c_sp :: t)) by (intros [X|X]; [discriminate X | easy]).
  assert (DM : In m dashes \/ m = c_star) by (destruct M as [<-|[<-|[<-|[]]]]; [left; now left|left; right; now left|now right]).
  destruct DM as [DM| ->].
  - apply (d_ul hd b c q l m ([c_sp] ++ t)); auto.
    + intros ck mk y TM E0. destruct ck; cbn in TM; [destruct TM as [-> | ->]| subst mk]; injection E0 as E0; subst t.
      * specialize (B (lit "[x] ") (or_intror (or_introl eq_refl))). discriminate B.
      * specialize (B (lit "[X] ") (or_intror (or_intror (or_introl eq_refl)))). discriminate B.
      * specialize (B (lit "[ ] ") (or_introl eq_refl)). discriminate B.
    + cbn [app]. rewrite trim_sp by exact S0. exact DI.
  - assert (TT : starts_in [c_tab] t = false).
    { destruct (starts_in [c_tab] t) eqn:E; [exfalso|reflexivity]. destruct t as [|x t]; [discriminate|]. cbn in E. rewrite orb_false_r in E. apply ceq_eq in E. subst x.
      clear - I. remember (c_tab :: t) as u eqn:EU. destruct I as [b T|no a s t' h' ht O BB SP]; subst.
      - apply trail_parts in T as [O _]. discriminate O.
      - destruct a as [|z a]; [|injection EU as -> _; discriminate O]. apply span_facts in SP as (NE & S1 & _).
        destruct s as [|z s]; [easy|]. injection EU as -> _. discriminate S1. }
    apply (d_ul_star hd b c q l c_star t); auto; [now left|]. rewrite trim_sp0 by exact S0. exact DI.
Qed.

Lemma ul_doc hd b c q r h f is : ul_items is -> item_end r -> doc hd b c q LUl (after_nl r) h f ->
  forall l, l = LNone \/ l = LUl ->
  doc hd b c q l (lines (map ul_line is) ++ r) (list_move l LUl ++ concat (map (fun i => li_tag (p_tag (snd i))) is) ++ h) f.
Proof.
  intros [NE F] LE D. induction F as [|i is [M1 T1] F IH]; [easy|]. intros l L. cbn [map concat].
  destruct is as [|i2 is].
  - cbn [map concat lines]. rewrite app_nil_r. now apply ul_item.
  - rewrite lines_cons by easy. remember (i2 :: is) as js eqn:EJ.
    rewrite <- !app_assoc. apply (ul_item hd b c q l i ([c_nl] ++ lines (map ul_line js) ++ r)); auto.
    + apply item_end_next. subst js. inversion F as [|? ? [D2 _] _]; subst. cbn [map].
      destruct i2 as [[m t] g]. cbn [fst] in D2. destruct is; (destruct D2 as [<-|[<-|[<-|[]]]]; reflexivity).
    + assert (NJ : js <> []) by (subst js; easy). exact (IH NJ LUl (or_intror eq_refl)).
Qed.
Lemma ul_head is r : ul_items is -> starts_in [c_nl] (lines (map ul_line is) ++ r) = false.
Proof.
  intros [NE F]. destruct F as [|[[m t] g] is [D _] F]; [easy|]. cbn [map fst] in *. destruct is; (destruct D as [<-|[<-|[<-|[]]]]; reflexivity).
Qed.
Lemma list_end' hd b c q l k : l <> LNone -> doc hd b c q l (after_nl (crep k c_nl)) (close_p b) (mkF c q (list_close l) []).
Proof. intros N. rewrite <- (app_nil_r (crep k c_nl)), after_nl_crep, app_nil_r by reflexivity. now apply list_end. Qed.
Lemma ul_shown ps is k : paragraphs ps -> ul_items is ->
  renders (before ps ++ lines (map ul_line is) ++ crep k c_nl) (p_tags ps ++ ul_tag (map (fun i => p_tag (snd i)) is)).
Proof.
  intros P I.
  pose proof (ul_doc false false false 0 (crep k c_nl) _ _ is I (item_end_crep k)
    (list_end' false false false 0 LUl k ltac:(easy)) LNone (or_introl eq_refl)) as D.
  apply (before_doc _ _ ps) in D; auto using ul_head. apply displays_renders. eexists _, _. split; [exact D|].
  rewrite fin_ul. unfold ul_tag. rewrite map_map. cbn [list_move list_open close_p]. rewrite app_nil_r, <- !app_assoc. reflexivity.
Qed.
(** Paragraph output after a list ends in a line break. *)
Lemma with_nl_tail a qs : with_nl (a ++ lit "</p>" ++ [c_nl] ++ p_tags qs) = a ++ lit "</p>" ++ [c_nl] ++ p_tags qs.
Proof.
  destruct (p_tags_ends qs) as [->|[z ->]]; [rewrite app_nil_r|]; rewrite !app_assoc; apply with_nl_ends.
Qed.
Definition then_text (l : listkind) (x y : char) (t : str) : str :=
  lit "<p>" ++ esc x ++ list_close l ++ [c_nl] ++ esc y ++ txt t ++ lit "</p>" ++ [c_nl].
Lemma plain_no_blank x r : plain x = true -> starts_in [c_sp; c_tab; c_nl] (x :: r) = false.
Proof.
  intros H. cbn [starts_in]. destruct (mem_char x [c_sp; c_tab; c_nl]) eqn:E; [|reflexivity]. apply mem_char_iff in E.
  repeat (destruct E as [<-|E]; [discriminate H|]). destruct E.
Qed.
Lemma ul_then_text ps is k x y t qs : paragraphs ps -> ul_items is -> 1 <= k -> plain x = true -> plain y = true ->
  visible x = true -> visible y = true -> trail t = true -> paragraphs qs ->
  renders (before ps ++ lines (map ul_line is) ++ crep k c_nl ++ (x :: y :: t) ++ after qs)
    (p_tags ps ++ lit "<ul>" ++ [c_nl] ++ concat (map (fun i => li_tag (p_tag (snd i))) is)
     ++ lit "<p>" ++ esc x ++ lit "</ul>" ++ [c_nl] ++ esc y ++ txt t ++ lit "</p>" ++ [c_nl] ++ p_tags qs).
Proof.
  intros P I K X Y VX VY T Q.
  pose proof (list_then_text false 0 LUl (pred k) x y t qs ltac:(easy) X Y VX VY T Q) as D0.
  rewrite <- after_nl_crep in D0 by (cbn [app]; now apply plain_not_nl).
  assert (E : item_end (crep k c_nl ++ (x :: y :: t) ++ after qs)).
  { exists k, ((x :: y :: t) ++ after qs). split; [reflexivity|]. split; [cbn [app]; now apply plain_no_blank|now right]. }
  pose proof (ul_doc false false false 0 _ _ _ is I E D0 LNone (or_introl eq_refl)) as D.
  apply (before_doc _ _ ps) in D; auto using ul_head. apply doc_renders in D.
  cbn [times repeat concat list_close list_move list_open] in D. rewrite <- !app_assoc in D. cbn [app] in D |- *.
  match type of D with renders _ (with_nl ?h) => replace (with_nl h) with h in D; [exact D|] end.
  pose proof (with_nl_tail (p_tags ps ++ lit "<ul>" ++ [c_nl] ++ concat (map (fun i => li_tag (p_tag (snd i))) is)
     ++ lit "<p>" ++ esc x ++ lit "</ul>" ++ [c_nl] ++ esc y ++ txt t) qs) as W.
  repeat (rewrite <- ?app_assoc in W; cbn [app] in W). symmetry. exact W.
Qed.

(** ** Task lists *)
Lemma task_doc hd b c q r h f is : task_items is -> item_end r -> doc hd b c q LTask (after_nl r) h f ->
  forall l, l = LNone \/ l = LTask ->
  doc hd b c q l (lines (map task_line is) ++ r) (list_move l LTask ++ concat (map task_item is) ++ h) f.
Proof.
  intros [NE F] LE D. induction F as [|i is [M1 T1] F IH]; [easy|]. intros l L. cbn [map concat].
  assert (ONE : forall r h, item_end r -> doc hd b c q LTask (after_nl r) h f ->
    doc hd b c q l (task_line i ++ r) (list_move l LTask ++ task_item i ++ h) f).
  { intros r0 h0 E0 D0. destruct i as [[m bx] t]. cbn [fst snd] in *. apply item_end_ok in E0 as [LE0 [N0 _]].
    apply (d_task hd b c q l m (box_checked bx) (box_src bx) t r0); auto. destruct bx; cbn; auto. }
  destruct is as [|i2 is].
  - cbn [map concat lines]. rewrite app_nil_r. now apply ONE.
  - rewrite lines_cons by easy. remember (i2 :: is) as js eqn:EJ.
    rewrite <- !app_assoc. apply ONE.
    + apply item_end_next. subst js. inversion F as [|? ? [D2 _] _]; subst. cbn [map].
      destruct i2 as [[m t] g]. cbn [fst] in D2. destruct is; (destruct D2 as [<-|[<-|[]]]; reflexivity).
    + assert (NJ : js <> []) by (subst js; easy). exact (IH NJ LTask (or_intror eq_refl)).
Qed.
Lemma task_head is r : task_items is -> starts_in [c_nl] (lines (map task_line is) ++ r) = false.
Proof.
  intros [NE F]. destruct F as [|[[m t] g] is [D _] F]; [easy|]. cbn [map fst] in *. destruct is; (destruct D as [<-|[<-|[]]]; reflexivity).
Qed.
Lemma task_shown ps is k : paragraphs ps -> task_items is ->
  renders (before ps ++ lines (map task_line is) ++ crep k c_nl) (p_tags ps ++ task_tag is).
Proof.
  intros P I.
  pose proof (task_doc false false false 0 (crep k c_nl) _ _ is I (item_end_crep k)
    (list_end' false false false 0 LTask k ltac:(easy)) LNone (or_introl eq_refl)) as D.
  apply (before_doc _ _ ps) in D; auto using task_head. apply displays_renders. eexists _, _. split; [exact D|].
  cbn [list_close]. rewrite fin_ul. unfold task_tag. cbn [list_move list_open close_p]. rewrite app_nil_r, <- !app_assoc. reflexivity.
Qed.

(** ** Escaped ordinary text is ordinary *)
Lemma esc_ordinary c r : mem_char c markup_chars = false ->
  esc c = [c] \/ (exists e, esc c = c_amp :: e) /\ ordinary (esc c ++ r) = ordinary r.
Proof.
  revert c. apply (esc_cases (fun c e => mem_char c markup_chars = false -> e = [c] \/ (exists e', e = c_amp :: e') /\ ordinary (e ++ r) = ordinary r));
    try (intros H; discriminate H); try (intros _; right; split; [eexists; reflexivity|reflexivity]). intros; now left.
Qed.
Lemma escaped_cons c t : escaped (c :: t) = esc c ++ escaped t.
Proof. reflexivity. Qed.
(** The first character stays the same or becomes an ampersand. *)
Lemma escaped_first c t : ordinary (c :: t) = true -> exists x u, escaped (c :: t) = x :: u /\ (x = c /\ u = escaped t \/ x = c_amp).
Proof.
  cbn [ordinary]. intros O. apply andb_true_iff in O as [O _]. apply ordinary_char_parts in O as (M & _). rewrite escaped_cons.
  destruct (esc_ordinary c [] M) as [->|[[e E] _]]; [eexists _, _; now split; [|left]|]. rewrite E. eexists _, _. now split; [|right].
Qed.
Lemma escaped_starts cs t : ordinary t = true -> ~ In c_amp cs -> starts_in cs t = false -> starts_in cs (escaped t) = false.
Proof.
  intros O NA S0. destruct t as [|c t]; [reflexivity|]. destruct (escaped_first c t O) as (x & u & -> & [[-> _]| ->]); [exact S0|].
  cbn [starts_in]. destruct (mem_char c_amp cs) eqn:K; [apply mem_char_iff in K; easy|reflexivity].
Qed.
Lemma escaped_ordinary t : ordinary t = true -> ordinary (escaped t) = true.
Proof.
  induction t as [|c t IH]; [reflexivity|]. intros O. cbn [ordinary] in O. apply andb_true_iff in O as [OC O]. specialize (IH O).
  pose proof (ordinary_char_parts _ _ OC) as (M & H1 & H2 & H3 & H4 & H5). rewrite escaped_cons.
  destruct (esc_ordinary c (escaped t) M) as [->|[_ ->]]; [|exact IH]. cbn [app ordinary]. rewrite IH, andb_true_r.
  unfold ordinary_char. rewrite M. rewrite !andb_true_iff, orb_true_iff, !negb_true_iff, !andb_false_iff, !ceq_neq.
  assert (ST : forall x, x <> c_amp -> starts_in [x] t = false -> starts_in [x] (escaped t) = false).
  { intros x NX. apply escaped_starts; [exact O|]. intros [->|[]]. easy. }
  repeat split.
  - destruct (N.eq_dec c c_sp) as [->|K]; [right; apply ST; auto; discriminate|now left].
  - destruct (N.eq_dec c c_nl) as [->|K]; [right; apply ST; auto; discriminate|now left].
  - destruct (is_digit c) eqn:K; [right|now left]. specialize (H3 eq_refl). clear - H3 O. destruct t as [|d t]; [reflexivity|].
    destruct (escaped_first d t O) as (x & u & -> & [[-> ->]| ->]); [|reflexivity].
    cbn [lit starts_with] in *. destruct (ceq (N_of_ascii ".") d); [|reflexivity]. cbn [andb] in *.
    cbn [ordinary] in O. apply andb_true_iff in O as [_ O]. destruct t as [|d2 t]; [reflexivity|].
    destruct (escaped_first d2 t O) as (x2 & u2 & -> & [[-> _]| ->]); [exact H3|reflexivity].
  - destruct (N.eq_dec c c_bang) as [->|K]; [right; apply ST; auto; discriminate|now left].
  - destruct (N.eq_dec c c_hash) as [->|K]; [right|now left]. specialize (H5 eq_refl). destruct t as [|d t]; [discriminate|].
    destruct (escaped_first d t O) as (x & u & -> & [[-> _]| ->]); [exact H5|reflexivity].
Qed.
Lemma ink_escaped t : ink (escaped t) = escaped (ink t).
Proof.
  induction t as [|c t IH]; [reflexivity|]. unfold ink. rewrite escaped_cons, filter_app. fold (ink (escaped t)). rewrite IH. cbn [filter].
  fold (ink t). unfold visible at 2. destruct (is_whitespace c) eqn:W; cbn [negb].
  - assert (E : esc c = [c]).
    { revert W. revert c. apply (esc_cases (fun c e => is_whitespace c = true -> e = [c])); try (intros H; discriminate H); reflexivity. }
    rewrite E. cbn. unfold visible. now rewrite W.
  - rewrite escaped_cons. f_equal. pose proof (esc_visible c W) as V. induction (esc c) as [|x e IHe]; [reflexivity|]. cbn in V. apply andb_true_iff in V as [V1 V2]. cbn. rewrite V1. f_equal. now apply IHe.
Qed.
Lemma has_ink_iff t : has_ink t = true <-> ink t <> [].
Proof.
  induction t as [|c t IH]; [easy|]. change (has_ink (c :: t)) with (visible c || has_ink t). unfold ink. cbn [filter]. fold (ink t). destruct (visible c); [easy|exact IH].
Qed.
Lemma escaped_has_ink t : ordinary t = true -> has_ink t = true -> has_ink (escaped t) = true.
Proof.
  intros O H. apply has_ink_iff. rewrite ink_escaped. apply has_ink_iff in H. intros E.
  assert (NB : ~ In c_bslash (ink t)). { intros I. apply ink_incl in I. revert I. apply ordinary_free; [vm_compute; tauto|exact O]. }
  destruct (ink t) as [|c u]; [easy|]. rewrite escaped_cons in E. apply app_eq_nil in E as [E _]. revert E NB.
  apply (esc_cases (fun c e => e = [] -> ~ In c_bslash (c :: u) -> False)); try discriminate. intros _ N. apply N. now left.
Qed.

(** ** Quotes *)
Definition quoted (t : str) : str := p_tag (escaped (escaped (ink t))).
Lemma quote_one hd b c q n t r h f : 1 <= n -> ordinary t = true -> has_ink t = true -> no_nl t -> starts_in [c_sp] t = false -> line_end r ->
  doc hd false c (n mod 256) LNone (after_nl r) h f ->
  doc hd b c q LNone (quote_line (n, t) ++ r) ((if b then lit "</p>" else []) ++ quote_tags q (n mod 256) ++ quoted t ++ h) f.
Proof.
  intros B O I N S0 LE D. unfold quote_line. cbn [fst snd].
  assert (E : quoted t = replace [c_tab] (lit "  ") (fin (p_tag (txt (escaped t))) (mkF false 0 [] []))).
  { rewrite fin_p_tag. unfold quoted, txt. rewrite ink_escaped. rewrite replace_none; [reflexivity|easy|].
    intros K. apply (infix_In _ _ c_tab) in K; [|now left]. unfold p_tag in K. rewrite !in_app_iff in K.
    destruct K as [K|[K|K]]; [revert K; vm_compute; intuition discriminate| |revert K; vm_compute; intuition discriminate].
    assert (V : forallb visible (txt (escaped t)) = true) by apply txt_visible. unfold txt in V. rewrite ink_escaped in V.
    rewrite forallb_forall in V. apply V in K. discriminate K. }
  rewrite E. apply (d_quote hd b c q n ([c_sp] ++ t)); auto.
  - intros [K|K]; [discriminate K|easy].
  - cbn [app]. rewrite trim_sp by exact S0. apply doc_para; [now apply escaped_ordinary|now apply escaped_has_ink].
Qed.

(** What follows a quote (or another block). *)
Lemma newlines_doc hd c q k r h f : starts_in [c_nl] r = false -> doc hd false c q LNone r h f -> doc hd false c q LNone (crep k c_nl ++ r) h f.
Proof.
  intros S0 D. destruct k as [|[|k]]; [exact D| |].
  - apply (d_blank hd false c q [c_nl] r [] h f); [now apply p_newline|exact D].
  - apply (d_newlines hd false c q (S (S k)) r h f); [lia|exact S0|exact D].
Qed.
Lemma after_ex hd c q qs : paragraphs qs -> exists g f, doc hd false c q LNone (after qs) g f.
Proof.
  induction 1 as [|p qs P Q IH]; [eexists _, _; apply (d_end hd false c q LNone)|].
  pose proof (inline_paragraph p P) as (I & HI & _).
  pose proof (inline_open hd c q p (txt p) I HI (after qs) _ _ (after_line_end qs) (after_doc hd c qs Q true) IH) as D.
  apply (newlines_doc hd c q 2) in D; [eexists _, _; exact D|now apply starts_in_para].
Qed.
Lemma follow_doc hd c q k qs : paragraphs qs ->
  doc hd false c q LNone (follow k qs) (match qs with [] => [] | _ => times q bq_close ++ p_tags qs end)
    (mkF c (match qs with [] => q | _ => 0 end) [] []).
Proof.
  intros P. unfold follow. destruct P as [|p qs P Q].
  - apply newlines_doc; [reflexivity|]. apply (d_end hd false c q LNone).
  - apply newlines_doc; [now apply starts_in_para|]. pose proof (inline_paragraph p P) as (I & HI & _).
    pose proof (inline_open hd c q p (txt p) I HI (after qs) _ _ (after_line_end qs) (after_doc hd c qs Q true) (after_ex hd c q qs Q)) as D.
    unfold p_tags. cbn [map concat]. fold (p_tags qs). unfold p_tag. rewrite <- !app_assoc. cbn [close_p] in D. rewrite <- !app_assoc in D. exact D.
Qed.
Lemma follow_ok k qs : paragraphs qs -> qs = [] \/ 1 <= k -> line_end (follow k qs) /\ after_nl (follow k qs) = follow (pred k) qs.
Proof.
  intros P E. unfold follow. split.
  - apply crep_line_end. destruct E as [->|E]; [now left|now right].
  - apply after_nl_crep. destruct P as [|p qs P Q]; [reflexivity|now apply starts_in_para].
Qed.

(** The html of quoted lines, from level [q]; [rest]: what follows, given the last level. *)
Fixpoint qhtml (q : nat) (is : list (nat * str)) (rest : nat -> str) : str :=
  match is with
  | [] => rest q
  | i :: is' => quote_tags q (fst i) ++ quoted (snd i) ++ qhtml (fst i) is' rest
  end.
Fixpoint qlevel (q : nat) (is : list (nat * str)) : nat :=
  match is with [] => q | i :: is' => qlevel (fst i) is' end.
Lemma quotes_doc hd c r rest ff is : quotes is -> line_end r ->
  (forall q, doc hd false c q LNone (after_nl r) (rest q) (ff q)) -> forall q,
  doc hd false c q LNone (lines (map quote_line is) ++ r) (qhtml q is rest) (ff (qlevel q is)).
Proof.
  intros [NE F] LE D. induction F as [|[n t] is (B & O & HI & N & S0) F IH]; [easy|]. intros q. cbn [map fst snd] in *.
  assert (ONE : forall r h f, line_end r -> doc hd false c n LNone (after_nl r) h f ->
    doc hd false c q LNone (quote_line (n, t) ++ r) (quote_tags q n ++ quoted t ++ h) f).
  { intros r0 h0 f0 E0 D0. rewrite <- (Nat.mod_small n 256) in D0 |- * by lia.
    pose proof (quote_one hd false c q n t r0 h0 f0 (proj1 B) O HI N S0 E0) as K. rewrite Nat.mod_small in * by lia. exact (K D0). }
  cbn [qhtml qlevel fst snd]. destruct is as [|i2 is].
  - cbn [map lines]. apply ONE; auto. apply (D n).
  - rewrite lines_cons by easy. remember (i2 :: is) as js eqn:EJ. rewrite <- !app_assoc. apply ONE.
    + right. eexists. reflexivity.
    + assert (NJ : js <> []) by (subst js; easy). exact (IH NJ n).
Qed.
Lemma quotes_head is r : quotes is -> starts_in [c_nl] (lines (map quote_line is) ++ r) = false.
Proof.
  intros [NE F]. destruct F as [|[n t] is [D _] F]; [easy|]. cbn [map fst] in *. destruct n as [|n]; [lia|]. destruct is; reflexivity.
Qed.
Definition quotes_rest (qs : list str) (q : nat) : str := match qs with [] => times q (bq_close ++ [c_nl]) | _ => times q bq_close ++ p_tags qs end.
Lemma with_nl_times h q : 1 <= q -> with_nl (h ++ times q (bq_close ++ [c_nl])) = h ++ times q (bq_close ++ [c_nl]).
Proof.
  intros B. apply with_nl_app. clear h. destruct q as [|q]; [lia|]. clear B. induction q as [|q [z IH]]; [now exists bq_close|].
  exists ((bq_close ++ [c_nl]) ++ z). unfold times in *. cbn [repeat concat] in *. rewrite IH. now rewrite <- !app_assoc.
Qed.
Lemma qhtml_app a is rest q : qhtml q is (fun q => a q ++ rest) = qhtml q is a ++ rest.
Proof. revert q. induction is as [|i is IH]; intros q; [reflexivity|]. cbn [qhtml]. now rewrite IH, !app_assoc. Qed.
Lemma qhtml_qlevel is a q : qhtml q is a = qhtml q is (fun _ => []) ++ a (qlevel q is).
Proof. revert q. induction is as [|i is IH]; intros q; [reflexivity|]. cbn [qhtml qlevel]. now rewrite IH, !app_assoc. Qed.
Lemma qlevel_pos is q : quotes is -> 1 <= qlevel q is.
Proof.
  intros [NE F]. revert q. induction F as [|i is [B _] F IH]; [easy|]. intros q. cbn [qlevel]. destruct is as [|j is]; [cbn; lia|]. now apply IH.
Qed.
Lemma quotes_shown ps is k qs : paragraphs ps -> quotes is -> paragraphs qs -> qs = [] \/ 1 <= k ->
  renders (before ps ++ lines (map quote_line is) ++ follow k qs) (p_tags ps ++ qhtml 0 is (quotes_rest qs)).
Proof.
  intros P I Q K. destruct (follow_ok k qs Q K) as [LE AN].
  pose proof (quotes_doc false false (follow k qs) _ _ is I LE (fun q => eq_ind_r (fun x => doc false false false q LNone x _ _) (follow_doc false false q (pred k) qs Q) AN) 0) as D.
  apply (before_doc _ _ ps) in D; auto using quotes_head. apply displays_renders. eexists _, _. split; [exact D|].
  rewrite (qhtml_qlevel is (quotes_rest qs)), (qhtml_qlevel is (fun q => match qs with [] => [] | _ => _ end)).
  pose proof (qlevel_pos is 0 I) as B. unfold fin, quotes_rest. cbn [f_quote f_close f_code f_notes notes_html]. rewrite !app_nil_r. destruct qs as [|p qs].
  - rewrite app_nil_r, (app_assoc (p_tags ps)). symmetry. now apply with_nl_times.
  - cbn [times repeat concat]. rewrite app_nil_r. destruct (p_tags_ends (p :: qs)) as [E|[z E]]; [discriminate E|]. rewrite E.
    rewrite !app_assoc. symmetry. apply with_nl_ends.
Qed.
(** Counting the tags. *)
Definition tagged (b : str) : Prop := b = [] \/ starts_in [c_lt] b = true.
Lemma occ_bq_open a b : tagged b -> occurrences bq_open (a ++ b) = occurrences bq_open a + occurrences bq_open b.
Proof. apply (occ_app c_lt (lit "blockquote>")). vm_compute. intuition discriminate. Qed.
Lemma occ_bq_close a b : tagged b -> occurrences bq_close (a ++ b) = occurrences bq_close a + occurrences bq_close b.
Proof. apply (occ_app c_lt (lit "/blockquote>")). vm_compute. intuition discriminate. Qed.
Lemma tagged_app a b : tagged a -> tagged b -> tagged (a ++ b).
Proof. intros [->|A] B; [exact B|]. right. destruct a; [discriminate A|exact A]. Qed.
Lemma occ_times z p n a : ~ In z p -> starts_in [z] a = true -> occurrences (z :: p) (times n a) = n * occurrences (z :: p) a.
Proof.
  intros N S0. unfold times. induction n as [|n IH]; [reflexivity|]. cbn [repeat concat]. rewrite occ_app, IH; auto.
  destruct n; [now left|right]. destruct a; [discriminate S0|exact S0].
Qed.
Lemma tagged_times n a : tagged a -> tagged (times n a).
Proof. intros T. unfold times. induction n as [|n IH]; [now left|]. cbn [repeat concat]. now apply tagged_app. Qed.
Lemma occ_p_tag h : ~ In c_lt h -> occurrences bq_open (p_tag h) = 0 /\ occurrences bq_close (p_tag h) = 0.
Proof.
  intros N. unfold p_tag. split.
  - transitivity (occurrences bq_open (h ++ lit "</p>" ++ [c_nl])); [reflexivity|]. rewrite occ_bq_open by now right.
    unfold bq_open. change (lit "<blockquote>") with (c_lt :: lit "blockquote>"). now rewrite occ_none.
  - transitivity (occurrences bq_close (h ++ lit "</p>" ++ [c_nl])); [reflexivity|]. rewrite occ_bq_close by now right.
    unfold bq_close. change (lit "</blockquote>") with (c_lt :: lit "/blockquote>"). now rewrite occ_none.
Qed.
Lemma tagged_p_tags ps : tagged (p_tags ps).
Proof. destruct ps; [now left|now right]. Qed.
Lemma occ_p_tags ps : occurrences bq_open (p_tags ps) = 0 /\ occurrences bq_close (p_tags ps) = 0.
Proof.
  induction ps as [|p ps [I1 I2]]; [now split|]. unfold p_tags. cbn [map concat]. fold (p_tags ps).
  destruct (occ_p_tag (txt p)) as [E1 E2]; [apply escaped_no_lt|].
  rewrite occ_bq_open, occ_bq_close by apply tagged_p_tags. now rewrite E1, E2, I1, I2.
Qed.
Lemma tagged_quote_tags q n : tagged (quote_tags q n).
Proof. unfold quote_tags. apply tagged_app; apply tagged_times; now right. Qed.
Lemma occ_quote_tags q n : occurrences bq_open (quote_tags q n) = n - q /\ occurrences bq_close (quote_tags q n) = q - n.
Proof.
  unfold quote_tags. rewrite occ_bq_open, occ_bq_close by (apply tagged_times; now right).
  unfold bq_open, bq_close. change (lit "<blockquote>") with (c_lt :: lit "blockquote>"). change (lit "</blockquote>") with (c_lt :: lit "/blockquote>").
  rewrite !occ_times; try reflexivity; try (vm_compute; intuition discriminate).
  change (occurrences (c_lt :: lit "blockquote>") (c_lt :: lit "/blockquote>")) with 0.
  change (occurrences (c_lt :: lit "blockquote>") ((c_lt :: lit "blockquote>") ++ [c_nl])) with 1.
  change (occurrences (c_lt :: lit "/blockquote>") (c_lt :: lit "/blockquote>")) with 1.
  change (occurrences (c_lt :: lit "/blockquote>") ((c_lt :: lit "blockquote>") ++ [c_nl])) with 0. lia.
Qed.
Lemma occ_quoted t : occurrences bq_open (quoted t) = 0 /\ occurrences bq_close (quoted t) = 0.
Proof. apply occ_p_tag. apply escaped_no_lt. Qed.
Lemma tagged_rest qs q : tagged (quotes_rest qs q).
Proof. destruct qs; [apply tagged_times; now right|]. apply tagged_app; [apply tagged_times; now right|apply tagged_p_tags]. Qed.
Lemma occ_rest qs q : occurrences bq_open (quotes_rest qs q) = 0 /\ occurrences bq_close (quotes_rest qs q) = q.
Proof.
  assert (X : forall a, a = bq_close \/ a = bq_close ++ [c_nl] -> occurrences bq_open (times q a) = 0 /\ occurrences bq_close (times q a) = q).
  { intros a A. unfold bq_open, bq_close. change (lit "<blockquote>") with (c_lt :: lit "blockquote>"). change (lit "</blockquote>") with (c_lt :: lit "/blockquote>").
    destruct A as [-> | ->]; rewrite !occ_times; try reflexivity; try (vm_compute; intuition discriminate).
    - change (occurrences (c_lt :: lit "blockquote>") bq_close) with 0. change (occurrences (c_lt :: lit "/blockquote>") bq_close) with 1. lia.
    - change (occurrences (c_lt :: lit "blockquote>") (bq_close ++ [c_nl])) with 0.
      change (occurrences (c_lt :: lit "/blockquote>") (bq_close ++ [c_nl])) with 1. lia. }
  destruct qs as [|p qs]; [apply X; now right|]. unfold quotes_rest. destruct (X bq_close (or_introl eq_refl)) as [X1 X2]. destruct (occ_p_tags (p :: qs)) as [P1 P2].
  rewrite occ_bq_open, occ_bq_close, X1, X2, P1, P2 by apply tagged_p_tags. lia.
Qed.
Lemma tagged_qhtml qs is q : tagged (qhtml q is (quotes_rest qs)).
Proof.
  destruct is as [|i is]; [apply tagged_rest|]. cbn [qhtml]. apply tagged_app; [apply tagged_quote_tags|]. apply tagged_app; [now right|]. revert i q.
  induction is as [|j is IH]; intros i q; [apply tagged_rest|]. cbn [qhtml]. apply tagged_app; [apply tagged_quote_tags|]. apply tagged_app; [now right|]. now apply IH.
Qed.
Lemma occ_qhtml qs is q : occurrences bq_close (qhtml q is (quotes_rest qs)) = occurrences bq_open (qhtml q is (quotes_rest qs)) + q.
Proof.
  revert q. induction is as [|i is IH]; intros q; cbn [qhtml].
  - destruct (occ_rest qs q) as [-> ->]. lia.
  - pose proof (tagged_qhtml qs is (fst i)) as T. assert (T2 : tagged (quoted (snd i) ++ qhtml (fst i) is (quotes_rest qs))) by (apply tagged_app; [now right|exact T]).
    rewrite !occ_bq_open, !occ_bq_close by assumption. destruct (occ_quote_tags q (fst i)) as [-> ->]. destruct (occ_quoted (snd i)) as [-> ->]. rewrite IH. lia.
Qed.
Lemma inside_qhtml qs a i b : forall q, exists pre post, qhtml q (a ++ i :: b) (quotes_rest qs) = pre ++ quoted (snd i) ++ post /\ tagged pre /\
  occurrences bq_open pre + q = occurrences bq_close pre + fst i /\ occurrences bq_close post = occurrences bq_open post + fst i.
Proof.
  induction a as [|j a IH]; intros q.
  - exists (quote_tags q (fst i)), (qhtml (fst i) b (quotes_rest qs)). split; [reflexivity|]. split; [apply tagged_quote_tags|].
    destruct (occ_quote_tags q (fst i)) as [-> ->]. split; [lia|apply occ_qhtml].
  - destruct (IH (fst j)) as (pre & post & E & T & C1 & C2). exists (quote_tags q (fst j) ++ quoted (snd j) ++ pre), post.
    cbn [app qhtml]. rewrite E. split; [now rewrite <- !app_assoc|]. split; [apply tagged_app; [apply tagged_quote_tags|now right]|].
    split; [|exact C2]. assert (T2 : tagged (quoted (snd j) ++ pre)) by now right.
    rewrite !occ_bq_open, !occ_bq_close by assumption. destruct (occ_quote_tags q (fst j)) as [-> ->]. destruct (occ_quoted (snd j)) as [-> ->]. lia.
Qed.

(** ** Tables *)
Lemma cell_ordinary n : forall s, length s <= n -> ordinary s = true -> ~ In c_hash s -> ~ In c_nl s -> cell_text None s (escaped s).
Proof.
  induction n as [|n IH]; intros s L O NH NN; (destruct s as [|c s]; [constructor|]); [cbn in L; lia|].
  cbn in L. assert (NH' : ~ In c_hash s) by (intros I; apply NH; now right). assert (NN' : ~ In c_nl s) by (intros I; apply NN; now right).
  pose proof O as O0. cbn [ordinary] in O. apply andb_true_iff in O as [OC O]. pose proof (ordinary_char_parts _ _ OC) as (M & H1 & H2 & H3 & H4 & _).
  rewrite escaped_cons. destruct (N.eq_dec c c_sp) as [->|N1].
  { change (esc c_sp) with (crep 1 c_sp). change (c_sp :: s) with (crep 1 c_sp ++ s). apply ct_spaces; [lia| |apply IH; auto; lia].
    specialize (H1 eq_refl). apply not_sp_tab; [exact H1|]. destruct s as [|x s]; [reflexivity|]. cbn [starts_in].
    destruct (mem_char x [c_tab]) eqn:K; [|reflexivity]. apply mem_char_iff in K as [<-|[]]. cbn in O. discriminate O. }
  destruct (is_digit c) eqn:D.
  { assert (EC : esc c = [c]). { apply digit_in in D. repeat (destruct D as [<-|D]; [reflexivity|]). destruct D. }
    rewrite EC. destruct (starts_in [c_dot] s) eqn:SD.
    - destruct s as [|x s]; [discriminate|]. cbn [starts_in] in SD. apply mem_char_iff in SD as [<-|[]].
      rewrite escaped_cons. change (esc c_dot) with [c_dot]. rewrite app_assoc. change (c :: c_dot :: s) with ([c; c_dot] ++ s).
      apply ct_digit_dot; [exact D| |].
      + specialize (H3 eq_refl). destruct s as [|y s]; [reflexivity|]. cbn [starts_in]. destruct (mem_char y [c_sp]) eqn:Y; [|reflexivity].
        apply mem_char_iff in Y as [<-|[]]. discriminate H3.
      + cbn [ordinary] in O. apply andb_true_iff in O as [_ O]. apply IH; [cbn in L; lia|exact O|intros I; apply NH'; now right|intros I; apply NN'; now right].
    - apply ct_digit; auto. apply IH; auto; lia. }
  destruct (N.eq_dec c c_bang) as [->|N5].
  { change (esc c_bang) with [c_bang]. change (c_bang :: s) with ([c_bang] ++ s). apply ct_bang; auto. apply IH; auto; lia. }
  apply ct_char; [|apply IH; auto; lia]. apply plain_char; auto.
  - intros ->. apply NN. now left.
  - intros ->. apply NH. now left.
Qed.
Lemma trim_in c s : In c (trim s) -> In c s.
Proof. intros I. eapply infix_In; [apply infix_trim|exact I]. Qed.
Lemma cell_ordinary_trim x : bar_free x -> ordinary_cell x -> cell_text None (trim x) (escaped (trim x)).
Proof.
  intros (_ & _ & NN) (O & NH). apply (cell_ordinary (length (trim x))); auto; intros I; apply trim_in in I; easy.
Qed.
Lemma Forall2_map {A B} (P : A -> B -> Prop) (f : A -> B) l : Forall (fun x => P x (f x)) l -> Forall2 P l (map f l).
Proof. induction 1; constructor; auto. Qed.
Lemma delim_align x : delim (trim x) = align_of x.
Proof. unfold delim, align_of. destruct (starts_with [c_colon] (trim x)), (ends_with [c_colon] (trim x)); reflexivity. Qed.
Lemma follow_head k qs x : paragraphs qs -> In x markup_chars -> x <> c_nl -> starts_in [x] (follow k qs) = false.
Proof.
  intros P I N. unfold follow. destruct k as [|k].
  - destruct P as [|p qs P Q]; [reflexivity|]. apply paragraph_parts in P as (O & HI & _). apply has_ink_cons in HI. destruct p as [|y p]; [easy|].
    cbn. rewrite orb_false_r. destruct (ceq y x) eqn:E; [|reflexivity]. apply ceq_eq in E. subst y. exfalso. apply (ordinary_free _ _ I O). now left.
  - cbn [crep repeat app starts_in mem_char existsb]. rewrite orb_false_r. apply ceq_neq. congruence.
Qed.
Lemma table_doc hd b c q heads delims rows hrows r h f : table_ok heads delims rows ->
  Forall2 (Forall2 (fun x y => cell_shows (trim x) y)) rows hrows -> starts_in [c_pipe] r = false ->
  doc hd b c q LNone r h f -> doc hd b c q LNone (table_src heads delims rows ++ r) (table_tag (map align_of delims) heads hrows ++ h) f.
Proof.
  intros (T1 & T2 & T3 & T4 & T5 & T6 & T7) C S0 D.
  replace (map align_of delims) with (map (fun x => delim (trim x)) delims) by (apply map_ext; intros; apply delim_align).
  now apply d_table.
Qed.
Lemma table_shown ps heads delims rows hrows k qs : paragraphs ps -> paragraphs qs -> table_ok heads delims rows ->
  Forall2 (Forall2 (fun x y => cell_shows (trim x) y)) rows hrows ->
  renders (before ps ++ table_src heads delims rows ++ follow k qs)
          (with_nl (p_tags ps ++ table_tag (map align_of delims) heads hrows ++ p_tags qs)).
Proof.
  intros P Q T C. pose proof (follow_doc false false 0 k qs Q) as D. cbn [times repeat concat app] in D.
  assert (D' : doc false false false 0 LNone (follow k qs) (p_tags qs) (mkF false 0 [] [])) by (destruct qs; exact D).
  apply (table_doc _ _ _ _ heads delims rows hrows) in D'; auto; [|apply follow_head; auto; [vm_compute; tauto|discriminate]].
  apply doc_renders. apply before_doc; auto.
Qed.

(** ** Lines of bars that are no table *)
Lemma bar_block_lines ls l : bar_block (ls ++ [l]) = bar_lines ls ++ bar_line l.
Proof.
  unfold bar_block, bar_lines. induction ls as [|x ls IH]; [reflexivity|]. cbn [app map concat]. rewrite lines_cons by (destruct ls; easy).
  rewrite IH, <- !app_assoc. reflexivity.
Qed.
Lemma bars_shown ps ls k qs : paragraphs ps -> paragraphs qs -> ls <> [] -> malformed ls -> Forall no_nl ls -> qs = [] \/ 1 <= k ->
  ~ infix (lit "[^") (bar_block ls) \/ ~ In c_rbrk (bar_block ls) ->
  renders (before ps ++ bar_block ls ++ follow k qs)
    (p_tags ps ++ match k, qs with
     | S (S (S k')), q :: qs' => p_tag (escaped (bar_block ls)) ++ p_tags qs
     | _, q :: qs' => p_tag (escaped (bar_block ls) ++ txt q) ++ p_tags qs'
     | _, [] => p_tag (escaped (bar_block ls))
     end).
Proof.
  intros P Q NE M F K NR. destruct (exists_last NE) as (ls' & l & ->). rewrite bar_block_lines in *.
  assert (F' : forall x, In x (ls' ++ [l]) -> ~ In c_nl x) by now rewrite Forall_forall in F.
  set (src := bar_lines ls' ++ bar_line l) in *.
  assert (HD : forall r, starts_in [c_nl] (src ++ r) = false) by (intros r; unfold src, bar_lines; destruct ls'; reflexivity).
  assert (W : forall h qs, with_nl (p_tags ps ++ p_tag h ++ p_tags qs) = p_tags ps ++ p_tag h ++ p_tags qs).
  { intros h qs'. destruct (p_tags_ends qs') as [->|[z ->]]; [rewrite app_nil_r; apply with_nl_app, p_tag_ends|rewrite !app_assoc; apply with_nl_ends]. }
  destruct k as [|k].
  { destruct K as [->|K]; [|lia]. unfold follow. cbn [crep repeat app]. rewrite app_nil_r.
    pose proof (W (escaped src) []) as W0. unfold p_tags at 2 4 in W0. cbn [map concat] in W0. rewrite !app_nil_r in W0. rewrite <- W0. apply doc_renders. apply before_doc; auto; [rewrite <- (app_nil_r src); apply HD|].
    rewrite <- (app_nil_r src) at 1.
    exact (d_open false false 0 LNone src [] (escaped src) _ _ (p_bars_end false ls' l M F' NR) (d_end false true false 0 LNone)). }
  (* the line break after the block belongs to it *)
  assert (E : follow (S k) qs = [c_nl] ++ follow k qs) by reflexivity. rewrite E.
  assert (D : forall h f, doc false true false 0 LNone (follow k qs) h f -> doc false false false 0 LNone (before ps ++ src ++ [c_nl] ++ follow k qs)
     (p_tags ps ++ (lit "<p>" ++ escaped src) ++ h) f).
  { intros h f D. apply before_doc; auto. rewrite app_assoc, <- (app_assoc (lit "<p>")).
    apply (d_open false false 0 LNone (src ++ [c_nl]) (follow k qs) (escaped src) h f); [|exact D].
    apply p_bars; auto. apply follow_head; auto; [vm_compute; tauto|discriminate]. }
  assert (D1 : forall k q qs', qs = q :: qs' -> k < 2 -> doc false true false 0 LNone (follow k qs) (txt q ++ close_p true ++ p_tags qs') (mkF false 0 [] [])).
  { intros j q qs' -> LT. inversion Q as [|? ? PQ Q']; subst. pose proof (paragraph_parts q PQ) as (O & _ & S1 & S2).
    pose proof (trail_doc false false q qs' ltac:(unfold trail; now rewrite O, S2) Q') as D0.
    destruct j as [|[|j]]; [exact D0| |lia]. unfold follow. cbn [crep repeat].
    apply (d_blank false true false 0 [c_nl] (q ++ after qs') [] _ _); [|exact D0]. apply p_newline. now apply starts_in_para. }
  destruct qs as [|q qs].
  - assert (D0 : doc false true false 0 LNone (follow k []) (close_p true) (mkF false 0 [] [])).
    { unfold follow. rewrite app_nil_r. destruct k as [|[|k]]; [apply (d_end false true false 0 LNone)|..].
      - apply (d_blank false true false 0 [c_nl] [] [] _ _); [now apply p_newline|apply (d_end false true false 0 LNone)].
      - rewrite <- (app_nil_r (crep (S (S k)) c_nl)). apply (d_newlines false true false 0 (S (S k)) [] []); [lia|reflexivity|apply (d_end false false false 0 LNone)]. }
    apply D in D0. apply doc_renders in D0. rewrite <- app_assoc in D0. fold (close_p true) in D0. change (lit "<p>" ++ escaped src ++ close_p true) with (p_tag (escaped src)) in D0.
    pose proof (W (escaped src) []) as W0. unfold p_tags at 2 4 in W0. cbn [map concat] in W0. rewrite !app_nil_r in W0. rewrite W0 in D0. destruct k as [|[|k]]; exact D0.
  - destruct (Nat.lt_ge_cases k 2) as [LT|GE].
    + specialize (D1 k q qs eq_refl LT). apply D in D1. apply doc_renders in D1.
      replace (p_tags ps ++ (lit "<p>" ++ escaped src) ++ txt q ++ close_p true ++ p_tags qs) with (p_tags ps ++ p_tag (escaped src ++ txt q) ++ p_tags qs) in D1
        by (unfold p_tag; cbn [close_p]; rewrite <- !app_assoc; reflexivity).
      rewrite W in D1. destruct k as [|[|k]]; [exact D1|exact D1|lia].
    + destruct k as [|[|k]]; [lia|lia|]. inversion Q as [|? ? PQ Q']; subst.
      pose proof (follow_doc false false 0 0 (q :: qs) Q) as D0. unfold follow at 1 in D0. cbn [crep repeat app times concat] in D0.
      assert (D2 : doc false true false 0 LNone (follow (S (S k)) (q :: qs)) (close_p true ++ p_tags (q :: qs)) (mkF false 0 [] [])).
      { unfold follow. apply d_newlines; [lia|now apply starts_in_para|exact D0]. }
      apply D in D2. apply doc_renders in D2.
      replace (p_tags ps ++ (lit "<p>" ++ escaped src) ++ close_p true ++ p_tags (q :: qs)) with (p_tags ps ++ p_tag (escaped src) ++ p_tags (q :: qs)) in D2
        by (unfold p_tag; cbn [close_p]; rewrite <- !app_assoc; reflexivity).
      rewrite W in D2. exact D2.
Qed.

(** ** Collapsible sections *)
Lemma details_shown ps summary body inner k qs : paragraphs ps -> paragraphs qs -> ~ In c_nl summary -> ~ In c_cr summary ->
  ~ infix (lit "<details>") body -> ~ infix (lit "</details>") body -> displays ([c_nl] ++ body) inner ->
  renders (before ps ++ details_src summary body ++ follow k qs)
          (with_nl (p_tags ps ++ details_tag summary inner ++ p_tags qs)).
Proof.
  intros P Q N1 N2 B1 B2 (hi & fi & DI & ->). pose proof (follow_doc false false 0 k qs Q) as D. cbn [times repeat concat app] in D.
  assert (D' : doc false false false 0 LNone (follow k qs) (p_tags qs) (mkF false 0 [] [])) by (destruct qs; exact D).
  apply (d_details false false false 0 summary body hi fi) in D'; auto.
  apply doc_renders. apply before_doc; auto.
Qed.
(** A body of paragraphs. *)
Lemma displays_paragraphs k qs : paragraphs qs -> displays (follow k qs) (with_nl (p_tags qs)).
Proof.
  intros Q. pose proof (follow_doc false false 0 k qs Q) as D. cbn [times repeat concat app] in D.
  assert (D' : doc false false false 0 LNone (follow k qs) (p_tags qs) (mkF false 0 [] [])) by (destruct qs; exact D).
  eexists _, _. split; [exact D'|]. now rewrite fin_plain.
Qed.

(** ** Footnotes *)
Lemma inline_no_tab t h : inline t h -> starts_in [c_tab] t = false.
Proof.
  intros I. destruct t as [|x t]; [reflexivity|]. cbn [starts_in]. destruct (mem_char x [c_tab]) eqn:E; [exfalso|reflexivity].
  apply mem_char_iff in E as [<-|[]]. remember (c_tab :: t) as u eqn:EU. destruct I as [b T|no a s t' h' ht O BB SP]; subst.
  - apply trail_parts in T as [O _]. discriminate O.
  - destruct a as [|z a]; [|injection EU as -> _; discriminate O]. apply span_facts in SP as (NE & S1 & _).
    destruct s as [|z s]; [easy|]. injection EU as -> _. discriminate S1.
Qed.
Definition chunks_src xs := concat (map chunk_src xs).
Definition chunks_html xs := concat (map chunk_html xs).
Definition chunks_notes xs := concat (map chunk_notes xs).
Lemma chunks_first xs : Forall chunk_ok xs -> starts_in [c_sp; c_tab; c_nl] (chunks_src xs) = false.
Proof.
  intros F. destruct F as [|x xs X F]; [reflexivity|]. unfold chunks_src. cbn [map concat]. destruct x as [t h|i t k]; [|reflexivity].
  destruct X as [(I & HI & S0) S1]. cbn [chunk_src]. apply has_ink_cons in HI. destruct t as [|y t]; [easy|].
  pose proof (inline_no_tab _ _ I) as S2. cbn [app starts_in mem_char existsb] in *. rewrite orb_false_r in S0, S1, S2. now rewrite S0, S1, S2.
Qed.
Definition add_notes (ns : list (str * str)) (f : final) : final := mkF (f_code f) (f_quote f) (f_close f) (ns ++ f_notes f).
Lemma chunks_doc hd c xs r h f : Forall chunk_ok xs -> starts_in [c_sp; c_tab; c_nl] r = false -> doc hd false c 0 LNone r h f ->
  doc hd false c 0 LNone (chunks_src xs ++ r) (chunks_html xs ++ h) (add_notes (chunks_notes xs) f).
Proof.
  intros F S0 D. induction F as [|x xs X F IH]; [destruct f; exact D|].
  assert (S1 : starts_in [c_sp; c_tab; c_nl] (chunks_src xs ++ r) = false).
  { pose proof (chunks_first xs F) as K. destruct (chunks_src xs); [exact S0|exact K]. }
  assert (S2 : starts_in [c_nl] (chunks_src xs ++ r) = false) by (eapply starts_in_incl; [|exact S1]; intros y [<-|[]]; vm_compute; tauto).
  unfold chunks_src, chunks_html, chunks_notes. cbn [map concat]. fold (chunks_src xs) (chunks_html xs) (chunks_notes xs). rewrite <- !app_assoc.
  destruct x as [t g|i t k]; cbn [chunk_ok chunk_src chunk_html chunk_notes] in *.
  - destruct X as [PX _]. cbn [app]. rewrite <- app_assoc. apply (para_doc' hd c t g); auto.
    + right. eexists. reflexivity.
    + intros b. apply (d_newlines hd b c 0 2); auto.
  - destruct X as (X1 & X2 & X3). cbn [app].
    assert (E : (lit "[^" ++ i ++ lit "]:" ++ t ++ [c_nl] ++ crep k c_nl) ++ chunks_src xs ++ r =
                (lit "[^" ++ i ++ lit "]:" ++ t ++ [c_nl]) ++ crep k c_nl ++ chunks_src xs ++ r) by now rewrite <- !app_assoc.
    cbn [app] in E |- *. rewrite E.
    apply (d_note hd false c 0 i t (crep k c_nl ++ chunks_src xs ++ r) _ (add_notes (chunks_notes xs) f)); auto.
    + destruct k as [|k]; [|reflexivity]. eapply starts_in_incl; [|exact S1]. intros y [<-|[<-|[]]]; vm_compute; tauto.
    + apply newlines_doc; [exact S2|exact IH].
Qed.
Lemma fin_notes h ns : fin h (mkF false 0 [] ns) = with_nl h ++ notes_html ns.
Proof. unfold fin. cbn [f_quote f_close f_code f_notes times repeat concat app]. now rewrite !app_nil_r. Qed.
Lemma chunks_shown xs : Forall chunk_ok xs -> renders (chunks_src xs) (with_nl (chunks_html xs) ++ notes_html (chunks_notes xs)).
Proof.
  intros F. pose proof (chunks_doc false false xs [] [] _ F eq_refl (d_end false false false 0 LNone)) as D. rewrite !app_nil_r in D.
  apply displays_renders. eexists _, _. split; [exact D|]. unfold add_notes. cbn [f_code f_quote f_close f_notes list_close]. now rewrite fin_notes, app_nil_r.
Qed.

(** ** Nested items leave no trace *)
Lemma nested_shown ps m t g m' t' k : paragraphs ps -> In m dashes -> In m' dashes -> item_text t g -> no_nl t' ->
  starts_in (c_tab :: dashes) t' = false ->
  renders (before ps ++ (m :: [c_sp] ++ t) ++ [c_nl] ++ (lit "  " ++ m' :: t') ++ crep k c_nl)
    (p_tags ps ++ lit "<ul>" ++ [c_nl] ++ lit "<li>" ++ p_tag g ++ [c_nl] ++ lit "</li>" ++ [c_nl] ++ lit "</ul>" ++ [c_nl]).
Proof.
  intros P M M' (I & HI & N & S0 & B & NC) N' S1.
  pose proof (inline_doc false false t g I HI) as DI.
  assert (D : doc false false false 0 LNone ((m :: ([c_sp] ++ t) ++ c_nl :: lit "  " ++ m' :: t') ++ crep k c_nl)
     (list_move LNone LUl ++ ul_li_nested (fin (p_tag g) (mkF false 0 [] [])) ++ close_p false) (mkF false 0 (lit "</ul>") [])).
  { apply (d_ul_nested false false false 0 LNone m ([c_sp] ++ t) m' t'); auto.
    - intros [X|X]; [discriminate X|easy].
    - rewrite <- (app_nil_r (crep k c_nl)). apply crep_line_end. now left.
    - intros ck mk y TM E0. destruct ck; cbn in TM; [destruct TM as [-> | ->]| subst mk]; injection E0 as E0; subst t.
      + specialize (B (lit "[x] ") (or_intror (or_introl eq_refl))). discriminate B.
      + specialize (B (lit "[X] ") (or_intror (or_intror (or_introl eq_refl)))). discriminate B.
      + specialize (B (lit "[ ] ") (or_introl eq_refl)). discriminate B.
    - cbn [app]. rewrite trim_sp by exact S0. exact DI.
    - exact (list_end' false false false 0 LUl k ltac:(easy)). }
  apply (before_doc _ _ ps) in D; auto; [|destruct M as [<-|[<-|[]]]; reflexivity].
  apply displays_renders. cbn [app] in *. rewrite <- !app_assoc in *. cbn [app] in *. eexists _, _. split; [exact D|].
  rewrite fin_ul. unfold ul_li_nested. rewrite fin_p_tag, pad_code_none by exact NC. cbn [list_move list_open close_p]. rewrite app_nil_r.
  repeat (rewrite <- ?app_assoc; cbn [app]). reflexivity.
Qed.

Lemma task_then_text ps is k x y t qs : paragraphs ps -> task_items is -> 1 <= k -> plain x = true -> plain y = true ->
  visible x = true -> visible y = true -> trail t = true -> paragraphs qs ->
  renders (before ps ++ lines (map task_line is) ++ crep k c_nl ++ (x :: y :: t) ++ after qs)
    (p_tags ps ++ lit "<ul class=""contains-task-list"">" ++ concat (map task_item is)
     ++ lit "<p>" ++ esc x ++ lit "</ul>" ++ [c_nl] ++ esc y ++ txt t ++ lit "</p>" ++ [c_nl] ++ p_tags qs).
Proof.
  intros P I K X Y VX VY T Q.
  pose proof (list_then_text false 0 LTask (pred k) x y t qs ltac:(easy) X Y VX VY T Q) as D0.
  rewrite <- after_nl_crep in D0 by (cbn [app]; now apply plain_not_nl).
  assert (E : item_end (crep k c_nl ++ (x :: y :: t) ++ after qs)).
  { exists k, ((x :: y :: t) ++ after qs). split; [reflexivity|]. split; [cbn [app]; now apply plain_no_blank|now right]. }
  pose proof (task_doc false false false 0 _ _ _ is I E D0 LNone (or_introl eq_refl)) as D.
  apply (before_doc _ _ ps) in D; auto using task_head. apply doc_renders in D.
  cbn [times repeat concat list_close list_move list_open] in D. rewrite <- ?app_assoc in D. cbn [app] in D |- *.
  match type of D with renders _ (with_nl ?h) => replace (with_nl h) with h in D; [exact D|] end.
  pose proof (with_nl_tail (p_tags ps ++ lit "<ul class=""contains-task-list"">" ++ concat (map task_item is)
     ++ lit "<p>" ++ esc x ++ lit "</ul>" ++ [c_nl] ++ esc y ++ txt t) qs) as W.
  repeat (rewrite <- ?app_assoc in W; cbn [app] in W). symmetry. exact W.
Qed.
(** Quotes of level 256 and more. *)
Lemma deep_quote ps n t : paragraphs ps -> 1 <= n -> ordinary t = true -> has_ink t = true -> no_nl t -> starts_in [c_sp] t = false ->
  renders (before ps ++ quote_line (n, t)) (p_tags ps ++ times (n mod 256) (bq_open ++ [c_nl]) ++ quoted t ++ times (n mod 256) (bq_close ++ [c_nl])).
Proof.
  intros P B O HI N S0. rewrite <- (app_nil_r (quote_line (n, t))).
  pose proof (quote_one false false false 0 n t [] _ _ B O HI N S0 (or_introl eq_refl) (d_end false false false (n mod 256) LNone)) as D.
  apply (before_doc _ _ ps) in D; auto; [|destruct n; [lia|reflexivity]]. apply displays_renders. eexists _, _. split; [exact D|].
  unfold fin, quote_tags. cbn [f_quote f_close f_code f_notes notes_html]. rewrite Nat.sub_0_r. cbn [Nat.sub times repeat concat close_p list_close app]. fold bq_open bq_close. rewrite !app_nil_r.
  rewrite <- !app_assoc. remember (n mod 256) as m. destruct m as [|m].
  - cbn [times repeat concat app]. rewrite app_nil_r. symmetry. apply with_nl_app. apply p_tag_ends.
  - rewrite (app_assoc (p_tags ps)), (app_assoc (p_tags ps ++ _)). symmetry. apply with_nl_times. lia.
Qed.

Lemma text_cells_shown ps heads delims rows hrows k qs : paragraphs ps -> paragraphs qs -> table_ok heads delims rows ->
  Forall2 (Forall2 (fun x y => cell_text None (trim x) y)) rows hrows ->
  renders (before ps ++ table_src heads delims rows ++ follow k qs)
          (with_nl (p_tags ps ++ table_tag (map align_of delims) heads hrows ++ p_tags qs)).
Proof.
  intros P Q T C. apply table_shown; auto.
  clear T. induction C as [|row hs rows hrows H C IH]; [constructor|]. constructor; [|exact IH].
  induction H; constructor; [now left | assumption].
Qed.

(** ** Cells that consist of links *)
Lemma angle_no_ws u : auto_dest u -> existsb is_whitespace (angle u) = false.
Proof.
  intros ((h & t & D) & _). pose proof (dest_chars _ _ _ D) as C. apply url_char_ascii in C as [_ C].
  unfold angle. now rewrite !existsb_app, C.
Qed.
Lemma angles_trim us : Forall auto_dest us -> trim (concat (map angle us)) = concat (map angle us).
Proof.
  intros F. apply trim_no_ws. induction F as [|u us A F IH]; [reflexivity|]. cbn [map concat].
  rewrite existsb_app, IH. now rewrite angle_no_ws.
Qed.
Lemma angles_doc us hs : Forall2 (fun u h => exists href t, dest u href t /\ ~ In c_gt u /\ h = a_tag href t) us hs ->
  doc false true false 0 LNone (concat (map angle us)) (concat hs ++ close_p true) (mkF false 0 [] []).
Proof.
  induction 1 as [|u h us hs (href & t & D & N & ->) H IH]; [apply d_end|].
  cbn [map concat]. rewrite <- app_assoc. apply d_more; [now apply p_auto | exact IH].
Qed.
Lemma angles_render us hs : us <> [] ->
  Forall2 (fun u h => exists href t, dest u href t /\ ~ In c_gt u /\ h = a_tag href t) us hs ->
  renders (concat (map angle us)) (p_tag (concat hs)).
Proof.
  intros NE H. destruct H as [|u h us hs (href & t & D & N & ->) H]; [easy|].
  pose proof (d_open false false 0 LNone (angle u) _ (a_tag href t) _ _ (p_auto _ _ u href t D N) (angles_doc us hs H)) as G.
  apply doc_renders in G. cbn [map concat times repeat app] in *. unfold p_tag. cbn [close_p] in G.
  match type of G with renders _ (with_nl ?x) => replace (with_nl x) with x in G end.
  - rewrite <- !app_assoc in *. exact G.
  - symmetry. rewrite !app_assoc. apply with_nl_ends.
Qed.
Lemma angles_cell w us : Forall auto_dest us -> cell_text (Some w) (concat (map angle us)) (times (length us) w).
Proof.
  induction 1 as [|u us ((href & t & D) & N & _) F IH]; [apply ct_nil|].
  cbn [map concat length]. unfold times. cbn [repeat concat].
  eapply (ct_auto (Some w) w u href t); eauto.
Qed.
Lemma angles_tags us : Forall auto_dest us -> exists hs,
  Forall2 (fun u h => exists href t, dest u href t /\ ~ In c_gt u /\ h = a_tag href t) us hs.
Proof.
  induction 1 as [|u us ((href & t & D) & N & _) F [hs IH]]; [now exists []|].
  exists (a_tag href t :: hs). constructor; eauto.
Qed.
Lemma angles_bar_free us : us <> [] -> Forall auto_dest us -> bar_free (concat (map angle us)).
Proof.
  intros NE F. split; [now destruct us|].
  assert (G : forall x, In x (concat (map angle us)) -> x <> c_pipe /\ x <> c_nl).
  { intros x I. apply in_concat in I as (y & Iy & Ix). apply in_map_iff in Iy as (u & <- & Iu).
    rewrite Forall_forall in F. destruct (F u Iu) as ((href & t & D) & _ & NP).
    apply dest_chars in D. rewrite forallb_forall in D.
    apply in_app_or in Ix as [[<-|[]]|Ix]; [split; discriminate|].
    apply in_app_or in Ix as [Ix|[<-|[]]]; [|split; discriminate].
    split; [intros ->; contradiction|]. intros ->. specialize (D _ Ix). discriminate D. }
  split; intros I; apply G in I as [A B]; congruence.
Qed.
Lemma links_repeated ps head delim us hs k qs : paragraphs ps -> paragraphs qs -> bar_free head -> bar_free delim ->
  us <> [] -> Forall auto_dest us ->
  Forall2 (fun u h => exists href t, dest u href t /\ h = a_tag href t) us hs ->
  renders (before ps ++ table_src [head] [delim] [[concat (map angle us)]] ++ follow k qs)
    (with_nl (p_tags ps ++ table_tag [align_of delim] [head] [[times (length us) (p_tag (concat hs))]] ++ p_tags qs)).
Proof.
  intros P Q BH BD NE F H.
  assert (H' : Forall2 (fun u h => exists href t, dest u href t /\ ~ In c_gt u /\ h = a_tag href t) us hs).
  { clear NE. revert F. induction H as [|u h us hs (href & t & D & E) H IH]; intros F; [constructor|].
    apply Forall_cons_iff in F as [(_ & N & _) F]. constructor; eauto 6. }
  apply (table_shown ps [head] [delim] [[concat (map angle us)]]); auto.
  - repeat split; try discriminate; repeat constructor; try apply BH; try apply BD; now apply angles_bar_free.
  - constructor; [|constructor]. constructor; [|constructor].
    rewrite angles_trim by exact F. right. exists (p_tag (concat hs)). split.
    + now apply angles_render.
    + now apply angles_cell.
Qed.

(** The size of the output is not linear in the size of the document. *)
Definition aa_b : str := lit "aa:b".
Lemma aa_b_dest : dest aa_b (lit "aa:b") (lit "aa:b").
Proof.
  change aa_b with (lit "aa" ++ [c_colon] ++ lit "b").
  pose proof (dest_abs (lit "aa") (lit "b")) as D. apply D.
  - repeat split; try reflexivity; try (cbn; lia). discriminate.
  - reflexivity.
  - vm_compute. intuition discriminate.
  - discriminate.
Qed.
Lemma aa_b_auto : auto_dest aa_b.
Proof. split; [exists (lit "aa:b"), (lit "aa:b"); apply aa_b_dest|]. split; vm_compute; intuition discriminate. Qed.
Lemma concat_repeat_length n (x : str) : @length char (@concat char (repeat x n)) = n * @length char x.
Proof. induction n as [|n IH]; [reflexivity|]. cbn [repeat concat]. rewrite app_length, IH. reflexivity. Qed.
Lemma with_nl_length h : length h <= length (with_nl h).
Proof. unfold with_nl. destruct (ends_with _ h); [auto|]. rewrite app_length. lia. Qed.
Lemma quadratic n : 1 <= n -> exists s h, renders s h /\ length s = 11 + 6 * n /\ n * n <= length h.
Proof.
  intros L. set (us := repeat aa_b n).
  assert (F : Forall auto_dest us). { apply Forall_forall. intros u I. apply repeat_spec in I as ->. apply aa_b_auto. }
  set (tag := a_tag (lit "aa:b") (lit "aa:b")).
  pose proof (links_repeated [] (lit "a") (lit "-") us (repeat tag n) 0 []) as R.
  eexists _, _. split; [apply R|].
  - constructor.
  - constructor.
  - repeat split; try discriminate; vm_compute; intuition discriminate.
  - repeat split; try discriminate; vm_compute; intuition discriminate.
  - unfold us. destruct n; [lia | discriminate].
  - exact F.
  - unfold us. clear. induction n; cbn [repeat]; constructor; [|assumption].
    exists (lit "aa:b"), (lit "aa:b"). split; [apply aa_b_dest | reflexivity].
  - split.
    + unfold before, follow, table_src, row_src, us. cbn [map concat repeat app crep].
      assert (E : concat (map angle (repeat aa_b n)) = concat (repeat (angle aa_b) n)).
      { f_equal. clear. induction n as [|n IH]; [reflexivity|]. cbn [repeat map]. now rewrite IH. }
      rewrite E. assert (CL : @length char (@concat char (repeat (angle aa_b) n)) = n * 6)
        by exact (concat_repeat_length n (angle aa_b)).
      revert CL. generalize (@concat char (repeat (angle aa_b) n)). intros z CL.
      repeat (cbn [length app lit]; rewrite ?app_length). cbn. lia.
    + etransitivity; [|apply with_nl_length]. unfold table_tag, tr_tag, td_tag.
      cbn [map combine concat fst snd]. rewrite !app_length.
      unfold times at 1. rewrite concat_repeat_length. unfold p_tag at 1. rewrite !app_length, concat_repeat_length.
      unfold us. rewrite repeat_length. change (length tag) with 23. nia.
Qed.
Lemma not_linear k : exists s h, renders s h /\ k * length s < length h.
Proof.
  destruct (quadratic (17 * k + 1) ltac:(lia)) as (s & h & R & Ls & Lh).
  exists s, h. split; [exact R|]. rewrite Ls. nia.
Qed.

(** ** Numbers of references *)
Lemma ref_head x xs b : Forall ref_ok xs -> trail b = true -> starts_in [c_colon; c_lpar] b = false ->
  In x (lit ":(*_~") -> starts_in [x] (refs_text xs b) = false.
Proof.
  intros F T S0 I. apply andb_true_iff in T as [O _].
  assert (G : forall y, ordinary y = true -> starts_in [c_colon; c_lpar] y = false -> starts_in [x] y = false).
  { intros [|c y] Oy Sy; [reflexivity|]. cbn. rewrite orb_false_r. apply ceq_neq. intros ->.
    cbn in Sy. apply orb_false_iff in Sy as [Sa Sb]. apply orb_false_iff in Sb as [Sb _]. apply ceq_neq in Sa, Sb.
    destruct (in_dec N.eq_dec x markup_chars) as [M|M]; [apply (ordinary_free _ _ M Oy); now left|].
    vm_compute in I. destruct I as [<-|[<-|[<-|[<-|[<-|[]]]]]]; try congruence; apply M; vm_compute; tauto. }
  unfold refs_text. destruct F as [|[a i] xs (Oa & _ & Sa & _) F]; [now apply G|].
  cbn [map concat fst snd] in *. destruct a as [|c a].
  - vm_compute in I. destruct I as [<-|[<-|[<-|[<-|[<-|[]]]]]]; reflexivity.
  - specialize (G (c :: a) Oa). cbn in G, Sa |- *. apply G. apply orb_false_iff in Sa. apply Sa.
Qed.
Lemma noteref_one i : noteref_tag i = note_tag 1 i.
Proof. reflexivity. Qed.
Lemma starts_in_each cs r : (forall x, In x cs -> starts_in [x] r = false) -> starts_in cs r = false.
Proof.
  intros H. destruct r as [|c r]; [reflexivity|]. cbn. destruct (mem_char c cs) eqn:E; [|reflexivity].
  apply existsb_exists in E as (x & I & E). specialize (H x I). cbn in H. rewrite orb_false_r in H. congruence.
Qed.
Lemma refs_inline xs b : Forall ref_ok xs -> trail b = true -> starts_in [c_colon; c_lpar] b = false ->
  forall k, inline (refs_text xs b) (refs_html (fun _ => 1) k xs ++ txt b).
Proof.
  intros F T S0. induction F as [|[a i] xs (Oa & Ba & Sa & N1 & N2) F IH]; intros k.
  - apply (in_end b T).
  - cbn [refs_html fst snd] in *. unfold refs_text. cbn [map concat fst snd].
    rewrite <- !app_assoc. fold (refs_text xs b).
    replace (a ++ lit "[^" ++ i ++ lit "]" ++ refs_text xs b) with (a ++ (lit "[^" ++ i ++ lit "]") ++ refs_text xs b)
      by now rewrite <- !app_assoc.
    rewrite <- noteref_one.
    apply (in_span [c_colon; c_lpar]); auto.
    + now apply sp_noteref.
    + apply starts_in_each. intros x I. apply ref_head; auto.
Qed.
Lemma refs_renders xs b : xs <> [] -> Forall ref_ok xs -> trail b = true -> starts_in [c_colon; c_lpar] b = false ->
  renders (refs_text xs b) (p_tag (refs_html (fun _ => 1) 1 xs ++ txt b)).
Proof.
  intros NE F T S0.
  assert (P : para (refs_text xs b) (refs_html (fun _ => 1) 1 xs ++ txt b)).
  { split; [now apply refs_inline|]. destruct F as [|[a i] xs (Oa & Ba & Sa & N1 & N2) F]; [easy|].
    unfold refs_text. cbn [map concat fst snd] in *. split.
    - unfold has_ink. rewrite !existsb_app. cbn. now rewrite !orb_true_r.
    - destruct a as [|c a]; [reflexivity|]. cbn in Sa |- *. apply orb_false_iff in Sa as [-> _]. reflexivity. }
  pose proof (pgaps_renders _ _ [] P ltac:(constructor)) as R. cbn in R. rewrite !app_nil_r in R. exact R.
Qed.
Lemma bar_refs_render ps t ids : paragraphs ps -> ids <> [] -> ~ In c_nl t -> ~ In c_rbrk t -> ~ infix (lit "[^") t ->
  Forall (fun i => ~ In c_nl i /\ note_name i) ids ->
  renders (before ps ++ bar_line (t ++ note_refs ids)) (p_tags ps ++ p_tag (bar_line t ++ numbered 1 ids)).
Proof.
  intros P NE N1 N2 N3 F.
  pose proof (line_shown_end (bar_line (t ++ note_refs ids)) (bar_line t ++ numbered 1 ids)) as L.
  specialize (L ltac:(discriminate) eq_refl (p_bar_notes false t ids NE N1 N2 N3 F) ps [] P eq_refl). exact L.
Qed.
