(** * Dos: Windows line ends. *)
From Coq Require Import Ascii String.
From Verif Require Import Strings StringsFacts Token Iter Lexer Parser NoPanic Markdown MarkdownFacts MarkdownBlocks SpecText TextFacts.
Open Scope list_scope.

(** Specification vocabulary: a line of text or a heading; [page eol ls]: the lines with
    [eol] between them. *)
Inductive row : Set := Words (t : str) | Title (n : nat) (t : str).
Definition row_src (l : row) : str := match l with Words t => t | Title n t => crep n c_hash ++ [c_sp] ++ t end.
Fixpoint page (eol : str) (ls : list row) : str :=
  match ls with [] => [] | [l] => row_src l | l :: rs => row_src l ++ eol ++ page eol rs end.
(** Lines of ordinary text and headings of ordinary text without hashes; no line is empty. *)
Definition row_ok (l : row) : Prop :=
  match l with
  | Words t => ordinary t = true /\ ~ In c_nl t /\ t <> []
  | Title n t => 1 <= n <= 6 /\ heading_ordinary t
  end.
Definition unix : str := [c_nl].
Definition windows : str := [c_cr; c_nl].

Fixpoint page_html (b : bool) (ls : list row) : str :=
  match ls with
  | [] => close_p b
  | Words t :: rs => (if negb b && has_ink t then lit "<p>" else []) ++ txt t ++ page_html (b || has_ink t) rs
  | Title n t :: rs => close_p b ++ h_tag n (txt t) ++ page_html false rs
  end.

(** The text of a line, followed by [r]. *)
Lemma words_doc t r g : ordinary t = true -> ~ In c_nl t -> starts_in [c_tab; c_dot; c_sp; c_lbrk] r = false ->
  (forall b, doc false b false 0 LNone r (g b) (mkF false 0 [] [])) ->
  forall b, doc false b false 0 LNone (t ++ r)
    ((if negb b && has_ink t then lit "<p>" else []) ++ txt t ++ g (b || has_ink t)) (mkF false 0 [] []).
Proof.
  intros O N S D b.
  assert (forall cs, incl cs [c_tab; c_dot; c_sp; c_lbrk] -> starts_in cs r = false) as S'.
  { intros cs I. eapply starts_in_incl; [exact I|exact S]. }
  assert (ord_before r t = true) as OB.
  { apply ord_ext; auto.
    - apply S'. intros z Z. cbn in Z |- *. tauto.
    - intros _. destruct (rev t) as [|z w] eqn:R; [reflexivity|]. cbn. rewrite orb_false_r. apply ceq_neq. intros ->.
      apply N. apply in_rev. rewrite R. now left.
    - rewrite S'; [discriminate|]. intros z [<-|[]]. cbn. tauto. }
  assert (starts_in [c_tab; c_dot] r = false) as S0 by (apply S'; intros z Z; cbn in Z |- *; tauto).
  destruct b.
  - cbn [negb andb orb app]. exact (ord_more false false 0 r _ _ S0 (D true) (length t) t (le_n _) OB).
  - cbn [negb andb orb].
    pose proof (ord_open false false r _ _ _ _ S0 (D true) (D false) (length t) t (le_n _) OB) as K.
    destruct (has_ink t); [exact K|]. destruct K as [K ->]. exact K.
Qed.

Lemma ordinary_cr t : ordinary t = true -> ordinary (t ++ [c_cr]) = true.
Proof.
  induction t as [|c t IH]; intros O; [reflexivity|]. cbn [app ordinary] in *. apply andb_true_iff in O as [OC O].
  rewrite (IH O), andb_true_r. destruct t as [|d t].
  - apply ordinary_char_parts in OC as (M & _). unfold ordinary_char. rewrite M. cbn [app starts_in].
    change (mem_char c_cr [c_sp]) with false. change (mem_char c_cr [c_nl]) with false.
    change (mem_char c_cr [c_lbrk]) with false. change (starts_with (lit ". ") [c_cr]) with false.
    rewrite !andb_false_r. change (hash_ok [c_cr]) with true. now rewrite orb_true_r.
  - apply ordinary_app_char; [exact OC|discriminate|]. cbn [app]. destruct t; [|reflexivity].
    cbn [app lit starts_with]. destruct (ceq _ d); reflexivity.
Qed.

(** A heading, followed by the end of the line or white space. *)
Lemma title_doc n t e r g : 1 <= n <= 6 -> heading_ordinary t -> e = [] \/ e = [c_cr] ->
  line_end r -> doc false false false 0 LNone r g (mkF false 0 [] []) ->
  forall b, doc false b false 0 LNone ((crep n c_hash ++ [c_sp] ++ t) ++ e ++ r)
    (close_p b ++ h_tag n (txt t) ++ g) (mkF false 0 [] []).
Proof.
  intros B H E L D b. destruct E as [->| ->].
  - pose proof (heading_ordinary_block n t [] B H (he_blanks [] ltac:(intros z []))) as K.
    unfold heading_src in K. rewrite app_nil_r in K. now apply K.
  - destruct H as (O & NI & NH & V).
    assert (HI : has_ink t = true).
    { destruct V as (t' & x & -> & W). unfold has_ink. rewrite existsb_app. cbn. unfold visible at 2. rewrite W. apply orb_true_r. }
    assert (ordinary (t ++ [c_cr]) = true) as OC by now apply ordinary_cr.
    assert (~ In c_hash [c_cr]) as NC by (intros [K|[]]; discriminate K).
    replace ((crep n c_hash ++ [c_sp] ++ t) ++ [c_cr] ++ r) with ((crep n c_hash ++ c_sp :: (t ++ [c_cr])) ++ r)
      by (rewrite <- !app_assoc; cbn [app]; now rewrite <- app_assoc).
    rewrite <- (trim_visible (txt t)) by apply txt_visible.
    assert (txt (t ++ [c_cr]) = txt t) as T by (rewrite txt_app; apply app_nil_r).
    rewrite <- T.
    apply (d_heading false b false 0 n c_sp (t ++ [c_cr]) (t ++ [c_cr]) (t ++ [c_cr]) (txt (t ++ [c_cr])) (mkF false 0 [] [])); auto.
    + now left.
    + intros K. apply in_app_iff in K as [K|[K|[]]]; [now apply NI|discriminate K].
    + apply ht_plain. left. intros (x & y & K).
      assert (In c_hash (t ++ [c_cr])) as I by (rewrite K; apply in_or_app; right; right; now left).
      apply in_app_iff in I as [I|I]; auto.
    + apply (hl_space t [] c_cr V); [reflexivity|intros [K|[K|[]]]; discriminate K|].
      intros l m ->. destruct m as [|m].
      * destruct V as (t' & x & V & W). apply app_inj_tail in V as [_ <-]. discriminate W.
      * apply NH. apply in_or_app. right. right. now left.
    + apply doc_para; [exact OC|]. rewrite has_ink_app', HI. reflexivity.
Qed.

Lemma row_first l : row_ok l -> exists c w, row_src l = c :: w /\ c <> c_nl.
Proof.
  destruct l as [t|n t]; cbn [row_ok row_src].
  - intros (_ & N & E). destruct t as [|c t]; [easy|]. exists c, t. split; [reflexivity|]. intros ->. apply N. now left.
  - intros [B _]. destruct n as [|n]; [lia|]. eexists c_hash, _. split; [reflexivity|discriminate].
Qed.
Lemma page_first eol ls : Forall row_ok ls -> starts_in [c_nl] (page eol ls) = false.
Proof.
  intros F. destruct F as [|l ls R F]; [reflexivity|]. destruct (row_first l R) as (c & w & E & N). apply ceq_neq in N.
  destruct ls as [|l' ls]; cbn [page]; rewrite E; cbn [app starts_in mem_char existsb]; rewrite N; reflexivity.
Qed.
(** The line break itself shows nothing. *)
Lemma eol_doc r g b : starts_in [c_nl] r = false -> doc false b false 0 LNone r g (mkF false 0 [] []) ->
  doc false b false 0 LNone (unix ++ r) g (mkF false 0 [] []) /\
  doc false b false 0 LNone (windows ++ r) g (mkF false 0 [] []).
Proof.
  intros S D.
  assert (doc false b false 0 LNone ([c_nl] ++ r) ([] ++ g) (mkF false 0 [] [])) as U.
  { apply d_blank; [apply p_newline; exact S|exact D]. }
  split; [exact U|]. change (windows ++ r) with ([c_cr] ++ [c_nl] ++ r). change g with ([] ++ g).
  apply d_blank; [|exact U]. change (@nil char) with (show c_cr). change false with (visible c_cr) at 2. apply p_char. reflexivity.
Qed.

Lemma page_doc eol ls : eol = unix \/ eol = windows -> Forall row_ok ls ->
  forall b, doc false b false 0 LNone (page eol ls) (page_html b ls) (mkF false 0 [] []).
Proof.
  intros E F. induction F as [|l ls R F IH]; intros b.
  - apply (d_end false b false 0 LNone).
  - set (r := match ls with [] => [] | _ => eol ++ page eol ls end).
    assert (page eol (l :: ls) = row_src l ++ r) as ->.
    { unfold r. destruct ls; cbn [page]; [now rewrite app_nil_r|reflexivity]. }
    assert (forall b, doc false b false 0 LNone r (page_html b ls) (mkF false 0 [] [])) as D.
    { intros b'. unfold r. destruct ls as [|l' ls]; [apply IH|].
      destruct (eol_doc (page eol (l' :: ls)) _ b' (page_first _ _ F) (IH b')) as [U W].
      destruct E as [->| ->]; assumption. }
    destruct l as [t|n t]; cbn [row_ok row_src page_html] in *.
    + destruct R as (O & N & _). apply (words_doc t r (fun b => page_html b ls)); auto. unfold r. destruct ls; [reflexivity|].
      destruct E as [->| ->]; reflexivity.
    + destruct R as [B H]. destruct ls as [|l' ls].
      * unfold r. apply (title_doc n t [] []); auto; now left.
      * unfold r. destruct (eol_doc (page eol (l' :: ls)) _ false (page_first _ _ F) (IH false)) as [U _].
        destruct E as [->| ->].
        { apply (title_doc n t []); auto. right. eexists. reflexivity. }
        { change (windows ++ page windows (l' :: ls)) with ([c_cr] ++ unix ++ page windows (l' :: ls)).
          apply title_doc; auto. right. eexists. reflexivity. }
Qed.

Theorem windows_lines ls : Forall row_ok ls ->
  exists h, renders (page unix ls) h /\ renders (page windows ls) h.
Proof.
  intros F. exists (with_nl (page_html false ls)). split; apply doc_renders; apply page_doc; auto.
Qed.

(** A heading with an id at its end that is fine with Unix line ends panics with Windows line ends. *)
Lemma windows_id n a i p : 1 <= n <= 6 -> ~ In c_nl a -> ~ In c_lbrace a -> heading_ordinary i -> paragraph p = true ->
  let doc eol := crep n c_hash ++ [c_sp] ++ a ++ lit "{#" ++ i ++ lit "}" ++ eol ++ p in
  renders (doc unix) (h_tag n (txt i) ++ p_tag (txt p)) /\ crashes (doc windows).
Proof.
  cbv zeta. intros B NA BA H P. split.
  - pose proof (heading_id_block n a i B NA BA H false (unix ++ p) (p_tag (txt p) ++ []) (mkF false 0 [] [])) as D.
    rewrite app_nil_r in D. cbn [close_p app] in D.
    replace (crep n c_hash ++ [c_sp] ++ a ++ lit "{#" ++ i ++ lit "}" ++ unix ++ p) with
      ((crep n c_hash ++ [c_sp] ++ a ++ lit "{#" ++ i ++ lit "}") ++ unix ++ p)
      by now rewrite <- !app_assoc.
    destruct (p_tag_ends (txt p)) as [z Z].
    rewrite <- (with_nl_app (h_tag n (txt i)) (p_tag (txt p))) by (exists z; exact Z).
    apply doc_renders. apply D; [right; eexists; reflexivity|].
    apply paragraph_parts in P as (O & I & S & _).
    apply (eol_doc p (p_tag (txt p)) false S). now apply doc_para.
  - replace (crep n c_hash ++ [c_sp] ++ a ++ lit "{#" ++ i ++ lit "}" ++ windows ++ p) with
      (crep n c_hash ++ c_sp :: (a ++ lit "{#" ++ i ++ lit "}" ++ [c_cr]) ++ c_nl :: p)
      by (now rewrite <- !app_assoc).
    destruct H as (_ & NI & _). apply heading_crashes; auto.
    + rewrite !in_app_iff. intros [K|[K|[K|[K|K]]]]; auto; vm_compute in K; intuition discriminate.
    + right. now eexists.
    + split; [|split].
      * exists a, (i ++ lit "}" ++ [c_cr]). reflexivity.
      * rewrite !in_app_iff. do 3 right. left. now left.
      * intros a' b' K. exfalso. apply (f_equal (@rev char)) in K. rewrite !rev_app_distr in K. discriminate K.
Qed.

Lemma windows_ex :
  let ls := [Title 2 (lit "On lines"); Words (lit "3 of them."); Words (lit "and #one"); Title 1 (lit "End!")] in
  Forall row_ok ls /\
  page windows ls = lit "## On lines" ++ [c_cr; c_nl] ++ lit "3 of them." ++ [c_cr; c_nl] ++ lit "and #one"
    ++ [c_cr; c_nl] ++ lit "# End!".
Proof.
  cbv zeta. split; [|reflexivity]. repeat constructor; cbn [row_ok].
  all: try (vm_compute; intuition discriminate).
  all: try (unfold heading_ordinary; repeat split; try (vm_compute; intuition discriminate)).
  - exists (lit "On line"), (N_of_ascii "s"). now split.
  - exists (lit "End"), c_bang. now split.
Qed.
Lemma windows_id_ex :
  heading_ordinary (lit "install") /\ paragraph (lit "Run it.") = true /\
  crashes (lit "# Installation {#install}" ++ [c_cr; c_nl] ++ lit "Run it.").
Proof.
  split; [|split; [reflexivity|exists 1; vm_compute; reflexivity]].
  unfold heading_ordinary. repeat split; try (vm_compute; intuition discriminate).
  exists (lit "instal"), (N_of_ascii "l"). now split.
Qed.
