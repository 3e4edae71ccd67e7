(** * RawHtml: documents whose text ends up as markup. *)
From Coq Require Import Ascii String.
From Verif Require Import Strings StringsFacts Token Iter Lexer Parser LexerFacts LexMono Exec.
Open Scope list_scope.

Lemma substring_all r : substring_from r [] = r.
Proof. unfold substring_from. cbn [length]. rewrite Nat.sub_0_r. apply firstn_all. Qed.
Lemma substring_app a r : substring_from (a ++ r) r = a.
Proof.
  unfold substring_from. rewrite app_length.
  replace (length a + length r - length r) with (length a) by lia.
  rewrite firstn_app, Nat.sub_diag, firstn_all. cbn. apply app_nil_r.
Qed.

(** [split] at the first occurrence of a two-character pattern. *)
Lemma split_go_first c d a b : forall acc, c <> d -> ~ infix [c; d] a ->
  split_go [c; d] 0 acc (a ++ c :: d :: b) = (rev acc ++ a) :: split [c; d] b.
Proof.
  induction a as [|x a IH]; intros acc N H.
  - cbn [app split_go]. change (c :: d :: b) with ([c; d] ++ b). rewrite starts_with_app.
    cbn [length Nat.sub app split_go]. now rewrite app_nil_r.
  - cbn [app split_go].
    assert (E : starts_with [c; d] (x :: a ++ c :: d :: b) = false).
    { destruct (starts_with _ _) eqn:E; [exfalso|auto]. apply starts_with_iff in E as [y E].
      cbn [app] in E. assert (x = c) by congruence. subst x.
      assert (E2 : a ++ c :: d :: b = d :: y) by congruence. destruct a as [|z a].
      - cbn in E2. congruence.
      - assert (z = d) by (cbn in E2; congruence). subst z. apply H. exists [], a. reflexivity. }
    rewrite E, IH; auto.
    + cbn [rev]. now rewrite <- app_assoc.
    + intros I. apply H. now apply infix_cons.
Qed.
Lemma split_none c d a acc : ~ infix [c; d] a -> split_go [c; d] 0 acc a = [rev acc ++ a].
Proof.
  revert acc; induction a as [|x a IH]; intros acc H; cbn [split_go]; [now rewrite app_nil_r|].
  assert (E : starts_with [c; d] (x :: a) = false).
  { destruct (starts_with _ _) eqn:E; [exfalso|auto]. apply starts_with_iff in E as [y E].
    apply H. exists [], y. exact E. }
  rewrite E, IH; [|intros I; apply H; now apply infix_cons]. cbn [rev]. now rewrite <- app_assoc.
Qed.

Lemma drop_blank_tail_id t c : is_whitespace c = false -> drop_blank_tail (t ++ [c]) = t ++ [c].
Proof.
  intros W. unfold drop_blank_tail, rfind_split_at.
  destruct (rsplit_once c_nl (t ++ [c])) as [[a b]|] eqn:E; [|auto].
  apply rsplit_once_some in E as [E _].
  destruct (forallb is_whitespace (c_nl :: b)) eqn:F; [exfalso|auto].
  destruct (exists_last (l := c_nl :: b)) as (b' & x & Eb); [easy|].
  rewrite Eb, app_assoc in E. apply app_inj_tail in E as [_ <-].
  rewrite Eb, forallb_app in F. cbn in F. rewrite W, andb_false_r in F. discriminate.
Qed.
Lemma ends_with_in c s : ends_with [c] s = true -> In c s.
Proof. intros H. apply ends_with_iff in H as [x ->]. apply in_or_app. right. now left. Qed.

(** A note reference with id [a], numbered 1. *)
Definition a_ref : str :=
  lit "<sup id=""fnref:a"" role=""doc-noteref""><a href=""#fn:a"" class=""footnote"" rel=""footnote"">1</a></sup>".

Lemma note_raw x : ~ In c_rbrk x -> ~ infix (lit "[^") (lit "[" ++ x) ->
  plaintext_html (lit "[" ++ x ++ lit "[^a]") = lit "[" ++ x ++ a_ref.
Proof.
  intros N1 N2. unfold plaintext_html.
  assert (E : lit "[" ++ x ++ lit "[^a]" = (lit "[" ++ x ++ lit "[^a") ++ [c_rbrk]) by (now rewrite <- !app_assoc).
  rewrite E, drop_blank_tail_id by reflexivity. rewrite <- E.
  assert (C1 : contains [c_lbrk; c_caret] (lit "[" ++ x ++ lit "[^a]") = true).
  { apply contains_iff. exists (lit "[" ++ x), (lit "a]"). now rewrite <- app_assoc. }
  assert (C2 : contains [c_rbrk] (lit "[" ++ x ++ lit "[^a]") = true).
  { apply contains_iff. exists (lit "[" ++ x ++ lit "[^a"), []. now rewrite <- !app_assoc. }
  rewrite C1, C2. cbn [andb].
  assert (S : split [c_lbrk; c_caret] (lit "[" ++ x ++ lit "[^a]") = [lit "[" ++ x; lit "a]"]).
  { unfold split. rewrite app_assoc. change (lit "[^a]") with (c_lbrk :: c_caret :: lit "a]").
    rewrite split_go_first; [reflexivity | discriminate | exact N2]. }
  rewrite S. cbn [footnote_pieces].
  destruct (ends_with [c_rbrk] (trim_end (lit "[" ++ x))) eqn:EE.
  { exfalso. apply ends_with_in in EE. eapply infix_In in EE; [|apply infix_trim_end].
    apply in_app_iff in EE as [[EE|[]]|EE]; [discriminate EE | auto]. }
  change (ends_with [c_rbrk] (trim_end (lit "a]"))) with true. cbn iota.
  rewrite <- app_assoc. f_equal.
Qed.

(** Any text without closing brackets is copied to the output unescaped. *)
Lemma raw_text x : ~ In c_rbrk x -> ~ infix (lit "[^") (lit "[" ++ x) ->
  renders (lit "[" ++ x ++ lit "[^a]") (lit "<p>[" ++ x ++ a_ref ++ lit "</p>" ++ [c_nl]).
Proof.
  intros N1 N2. set (s := lit "[" ++ x ++ lit "[^a]").
  assert (S : steps [] None s [Plaintext s] (Some (Plaintext s)) []).
  { apply steps_one. exists 0. unfold s. cbn [lit app next_token]. fold (lit "[^a]").
    change (dispatch _ _ _ _ _ _ _) with (lex_links (c_lbrk :: x ++ lit "[^a]")) at 1.
    unfold lex_links, consume_while. cbn [next_if_eq]. change (ceq c_lbrk c_lbrk) with true. cbn iota.
    set (g := fun c : char => negb (ceq c c_rbrk)).
    assert (G : forallb g (x ++ lit "[^a") = true).
    { apply forallb_forall. intros c I. apply negb_true_iff, ceq_neq. intros ->.
      apply in_app_iff in I as [I|I]; [auto|]. revert I. vm_compute. intuition discriminate. }
    assert (E : x ++ lit "[^a]" = (x ++ lit "[^a") ++ [c_rbrk]) by (now rewrite <- app_assoc).
    rewrite E, take_while_app, drop_while_app by exact G. cbn [take_while drop_while].
    change (g c_rbrk) with false. cbn iota. cbn [next_if_eq]. change (ceq c_rbrk c_rbrk) with true. cbn iota.
    assert (ST : starts_with [c_caret] ((x ++ lit "[^a") ++ []) = false).
    { destruct x as [|c x]; [reflexivity|]. cbn [app starts_with]. rewrite andb_true_r.
      destruct (ceq c_caret c) eqn:EC; [exfalso|auto]. apply ceq_eq in EC; subst c.
      apply N2. exists [], x. reflexivity. }
    rewrite ST. cbn [next_if_eq bind]. rewrite substring_all. rewrite <- E. reflexivity. }
  assert (B : is_blank s = false).
  { unfold is_blank, is_empty, s, trim. cbn [lit app trim_start_by drop_while].
    change (is_whitespace (N_of_ascii "[")) with false. cbn iota.
    destruct (trim_end _) eqn:E; [exfalso|auto]. unfold trim_end, trim_end_by in E.
    apply (f_equal (@rev char)) in E. rewrite rev_involutive in E. cbn [rev] in E.
    rewrite rev_app_distr in E. cbn in E. discriminate E. }
  assert (H : plays [Plaintext s] pinit (mkP (lit "<p>" ++ (lit "[" ++ x ++ a_ref)) 0 false true false false false [])).
  { apply plays_one, does_ret. intros R PA. cbn [pre]. rewrite B. cbn [in_paragraph pinit negb body].
    rewrite B. unfold s. rewrite note_raw by assumption. reflexivity. }
  pose proof (exec_renders _ _ _ _ S H) as K. unfold finish in K. cbn [html in_paragraph quote_level nrep
    in_task_list in_unordered_list in_ordered_list in_code references refs_html orb] in K.
  rewrite !app_nil_r in K. unfold ends_nl in K.
  rewrite (app_assoc _ (lit "</p>")), ends_with_app in K.
  replace (lit "<p>[" ++ x ++ a_ref ++ lit "</p>" ++ [c_nl])
    with ((lit "<p>" ++ (lit "[" ++ x ++ a_ref)) ++ lit "</p>" ++ [c_nl]) by (now rewrite <- !app_assoc).
  rewrite app_assoc. exact K.
Qed.
