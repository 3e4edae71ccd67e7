(** * TabFacts: tabs and several spaces between two words.

    Facts behind PropertiesTab.v, by the rules of Markdown.v. *)
From Coq Require Import Ascii String.
From Verif Require Import Strings StringsFacts Token Iter Lexer Parser SanitizeFacts
  Markdown MarkdownFacts MarkdownSound Decode DecodeFacts SpecText TextFacts.
Open Scope list_scope.

(** A letter of ASCII. *)
Definition ascii_letter (x : char) : Prop := (65 <= x <= 90)%N \/ (97 <= x <= 122)%N.

Lemma letter_not x cs : ascii_letter x -> Forall (fun c => ~ ascii_letter c) cs -> mem_char x cs = false.
Proof.
  intros L F. destruct (mem_char x cs) eqn:E; [|reflexivity]. apply mem_char_iff in E. rewrite Forall_forall in F. now apply F in E.
Qed.
Ltac no_letters := repeat (apply Forall_cons || apply Forall_nil); intros [[A B]|[A B]]; (apply A; reflexivity) || (apply B; reflexivity).

Lemma letter_plain x : ascii_letter x -> plain x = true.
Proof. intros L. unfold plain. rewrite (letter_not x _ L); [reflexivity|]. no_letters. Qed.
Lemma letter_visible x : ascii_letter x -> visible x = true.
Proof.
  intros L. unfold visible, is_whitespace. apply negb_true_iff.
  destruct L as [[A B]|[A B]]; repeat (apply orb_false_iff; split); try (apply N.eqb_neq; lia);
    try (apply andb_false_iff; rewrite !N.leb_gt; lia).
Qed.
Lemma letter_head x r : ascii_letter x -> starts_in [c_tab; c_dot] (x :: r) = false.
Proof. intros L. cbn [starts_in]. rewrite (letter_not x _ L); [reflexivity|]. no_letters. Qed.

(** Text that ends in a letter is ordinary in front of everything. *)
Lemma ord_letter x r a : ascii_letter x -> ordinary (a ++ [x]) = true -> ord_before (x :: r) a = true.
Proof.
  intros L. induction a as [|c a IH]; intros O; [reflexivity|]. cbn [app ordinary] in O. apply andb_true_iff in O as [OC O].
  cbn [ord_before]. rewrite (IH O), andb_true_r. change (x :: r) with ([x] ++ r). rewrite app_assoc.
  apply ordinary_app_char; [exact OC|destruct a; discriminate|].
  assert (ND : ceq c_dot x = false) by (apply ceq_neq; intros <-; destruct L as [[A B]|[A B]]; (apply A; reflexivity) || (apply B; reflexivity)).
  assert (NS : ceq c_sp x = false) by (apply ceq_neq; intros <-; destruct L as [[A B]|[A B]]; (apply A; reflexivity) || (apply B; reflexivity)).
  change (lit ". ") with [c_dot; c_sp].
  destruct a as [|y [|z a]]; cbn [app starts_with]; rewrite ?ND, ?NS; try reflexivity.
Qed.

Section Between.
Variables (ps qs : list str) (a : str) (x : char).
Hypothesis P : paragraphs ps.
Hypothesis A : paragraph (a ++ [x]) = true.
Hypothesis L : ascii_letter x.

(** The words in front, for everything behind. *)
Lemma words_doc r h f : doc false true false 0 LNone r h f ->
  doc false false false 0 LNone (before ps ++ (a ++ [x]) ++ r) (p_tags ps ++ lit "<p>" ++ txt (a ++ [x]) ++ h) f.
Proof.
  intros D. apply paragraph_parts in A as (O & I & S1 & _).
  assert (PX : piece false r [x] true (show x)) by (rewrite <- (letter_visible x L); apply p_char, letter_plain, L).
  pose proof (d_more false false 0 _ _ _ _ _ PX D) as D1. pose proof (d_open false false 0 LNone _ _ _ _ _ PX D) as D0.
  pose proof (ord_open false false (x :: r) _ _ _ _ (letter_head x r L) D1 D0 (length a) a (le_n _) (ord_letter x r a L O)) as K.
  apply before_doc; [exact P| |].
  - rewrite starts_in_app; [exact S1|destruct a; discriminate].
  - rewrite <- app_assoc. change ([x] ++ r) with (x :: r). rewrite txt_app, txt_cons. change (txt []) with (@nil char).
    rewrite app_nil_r. destruct (has_ink a).
    + rewrite <- app_assoc. exact K.
    + destruct K as [K E]. rewrite E. exact K.
Qed.

(** One to three spaces are like one. *)
Lemma few_spaces n b : 1 <= n <= 3 -> trail b = true -> paragraphs qs -> starts_in blank_chars (b ++ after qs) = false ->
  renders (before ps ++ ((a ++ [x]) ++ crep n c_sp ++ b) ++ after qs) (p_tags ps ++ p_tag (txt (a ++ [x]) ++ txt b) ++ p_tags qs).
Proof.
  intros N B Q S.
  pose proof (d_blank false true false 0 _ _ _ _ _ (p_blanks false (b ++ after qs) n N S) (trail_doc false false b qs B Q)) as D.
  apply words_doc in D. apply doc_renders in D. rewrite <- !app_assoc in *. unfold p_tag. cbn [app close_p] in D.
  assert (E : with_nl (p_tags ps ++ lit "<p>" ++ txt (a ++ [x]) ++ txt b ++ lit "</p>" ++ [c_nl] ++ p_tags qs) =
    p_tags ps ++ lit "<p>" ++ txt (a ++ [x]) ++ txt b ++ lit "</p>" ++ [c_nl] ++ p_tags qs).
  { destruct (p_tags_ends qs) as [->|[y ->]]; [rewrite app_nil_r|]; rewrite !app_assoc; apply with_nl_ends. }
  rewrite <- !app_assoc in *. rewrite <- E. exact D.
Qed.

(** Four, or a tab, begin a code block. *)
Lemma code_inside ws t q : In ws [[c_tab]; lit "    "; lit "  " ++ [c_tab]] -> ~ In c_nl t -> ~ In c_hash t ->
  starts_in blank_chars t = false -> t <> [] -> trail q = true -> paragraphs qs ->
  renders (before ps ++ ((a ++ [x]) ++ ws ++ t ++ [c_nl] ++ q) ++ after qs)
    (p_tags ps ++ lit "<p>" ++ txt (a ++ [x]) ++ lit "<pre><code>" ++ escaped t ++ [c_nl] ++ txt q ++ lit "</p>" ++ [c_nl] ++ p_tags qs ++ lit "</code></pre>").
Proof.
  intros W NL NH S0 NE TQ Q.
  assert (DC : doc false true false 0 LNone (ws ++ (t ++ [c_nl]) ++ q ++ after qs)
     (lit "<pre><code>" ++ escaped (t ++ [c_nl]) ++ txt q ++ close_p true ++ p_tags qs) (mkF true 0 [] [])).
  { apply (d_indented false true false 0 ws t (q ++ after qs)); auto. now apply trail_doc. }
  apply words_doc in DC. apply doc_renders_code in DC. rewrite escaped_app in DC. change (escaped [c_nl]) with [c_nl] in DC. cbn [close_p app] in DC.
  assert (E : forall z, with_nl (z ++ (lit "</p>" ++ [c_nl]) ++ p_tags qs) = z ++ (lit "</p>" ++ [c_nl]) ++ p_tags qs).
  { intros z. destruct (p_tags_ends qs) as [->|[y ->]]; [rewrite app_nil_r|]; rewrite !app_assoc; apply with_nl_ends. }
  rewrite !app_assoc in DC. rewrite <- (app_assoc _ (lit "</p>")) in DC. rewrite <- (app_assoc _ (lit "</p>" ++ [c_nl])) in DC. rewrite E in DC.
  rewrite <- !app_assoc in *. exact DC.
Qed.

(** Five or more: the rest of the line is shown as it is written, with the spaces. *)
Lemma many_spaces n t q : 5 <= n -> ~ In c_nl t -> literal t -> trail q = true -> paragraphs qs -> starts_in blank_chars (q ++ after qs) = false ->
  renders (before ps ++ ((a ++ [x]) ++ crep n c_sp ++ t ++ [c_nl] ++ q) ++ after qs)
    (p_tags ps ++ p_tag (txt (a ++ [x]) ++ crep n c_sp ++ escaped t ++ txt q) ++ p_tags qs).
Proof.
  intros N NL LT TQ Q S.
  pose proof (d_more false false 0 _ _ _ _ _ (p_many_blanks false (q ++ after qs) n t N NL LT S) (trail_doc false false q qs TQ Q)) as D.
  apply words_doc in D. apply doc_renders in D. rewrite <- !app_assoc in *. unfold p_tag. cbn [app close_p] in D.
  assert (E : forall z, with_nl (z ++ (lit "</p>" ++ [c_nl]) ++ p_tags qs) = z ++ (lit "</p>" ++ [c_nl]) ++ p_tags qs).
  { intros z. destruct (p_tags_ends qs) as [->|[y ->]]; [rewrite app_nil_r|]; rewrite !app_assoc; apply with_nl_ends. }
  rewrite !app_assoc in D. rewrite <- (app_assoc _ (lit "</p>")) in D. rewrite <- (app_assoc _ (lit "</p>" ++ [c_nl])) in D. rewrite E in D.
  rewrite <- !app_assoc in *. exact D.
Qed.
End Between.
