(** * LinkNotes: a reference to a footnote, its footnote, and the ids of the page. *)
From Coq Require Import Ascii String.
From Verif Require Import Strings StringsFacts Token Iter Lexer Parser SanitizeFacts LexMono Html SafeClasses
  Markdown MarkdownFacts MarkdownSound SpecText TextFacts SpecBlocks BlockFacts.
Open Scope list_scope.

(** A paragraph with a reference to a note, and the note. *)
Definition noted (a i b t : str) : str :=
  a ++ lit "[^" ++ i ++ lit "]" ++ b ++ blank_line ++ lit "[^" ++ i ++ lit "]:" ++ t ++ [c_nl].
(** The id [x] ([on_id x k v]: [v] is the value of an id and equal to [x]). *)
Definition on_id (x k v : str) : bool := ends_with (lit " id=") k && str_eqb v x.

Lemma harmless_ids s h : renders s h -> harmless s -> safe_html other_id h.
Proof.
  intros R (H1 & H2 & H3).
  apply (urls_safe other_id other_id_ok (fun d e => clean_value d /\ ~ In c_lt e) (fun _ _ => True)
    (fun d => no_url d \/ clean_value d)) with (s := s); auto.
  - intros k src e u _ _ K. unfold other_id. destruct (ends_with (lit " id=") k) eqn:E; [|reflexivity].
    destruct (id_not_href_src k E). congruence.
  - intros k src u _ _ K. unfold other_id. destruct (ends_with (lit " id=") k) eqn:E; [|reflexivity].
    destruct (id_not_href_src k E). congruence.
  - intros k src e u _ _ K. unfold other_id. destruct (ends_with (lit " id=") k) eqn:E; [|reflexivity].
    destruct (id_not_href_src k E). congruence.
  - split; [exact H1|]. split; [exact H2|]. split; [repeat intro; exact I | exact H3].
Qed.

Lemma other_on i : escaped i <> lit "1" ->
  forall k v, other_id k v = false -> on_id (lit "fn:" ++ escaped i) k v = false.
Proof.
  intros N k v. unfold other_id, on_id. destruct (ends_with _ k); [|reflexivity]. cbn [andb]. intros E.
  apply negb_false_iff, orb_true_iff in E. apply not_true_iff_false. intros Q. apply str_eqb_eq in Q. subst v.
  destruct E as [E|E].
  - apply str_eqb_eq in E. apply N. exact (f_equal (skipn 3) E).
  - discriminate E.
Qed.

Lemma noted_shown a i b t : lead a = true -> starts_in [c_sp] a = false -> trail b = true ->
  starts_in (lit ":(*_~") b = false ->
  ~ In c_rbrk i -> existsb is_whitespace i = false -> ~ infix (lit "[^") i -> ~ In c_nl t ->
  renders (noted a i b t)
    (with_nl (p_tag (txt a ++ noteref_tag i ++ txt b)) ++ notes_html [(i, trim t)]).
Proof.
  intros A A' B B' I1 I2 I3 T. unfold lead in A. apply andb_true_iff in A as [A A3]. apply andb_true_iff in A as [A1 A2].
  apply negb_true_iff in A2, A3.
  pose proof (chunks_shown [CPara (a ++ (lit "[^" ++ i ++ lit "]") ++ b) (txt a ++ noteref_tag i ++ txt b); CNote i t 0]) as R.
  unfold chunks_src, chunks_html, chunks_notes in R. cbn [map concat chunk_src chunk_html chunk_notes crep repeat app] in R. rewrite ?app_nil_r in R.
  unfold noted. rewrite <- !app_assoc in R. apply R. constructor; [|constructor; [|constructor]].
  - split.
    + split; [|split].
      * replace (lit "[^" ++ i ++ lit "]" ++ b) with ((lit "[^" ++ i ++ lit "]") ++ b) by now rewrite <- !app_assoc.
        apply (in_span [c_colon; c_lpar]); auto; [now apply sp_noteref | now apply in_end].
      * unfold has_ink. rewrite existsb_app. cbn [lit app existsb]. apply orb_true_iff. right. reflexivity.
      * destruct a; [reflexivity | exact A2].
    + destruct a; [reflexivity | exact A'].
  - split; [auto|]. now split.
Qed.

Lemma no_target a i b t : lead a = true -> starts_in [c_sp] a = false -> trail b = true ->
  starts_in (lit ":(*_~") b = false ->
  ~ In c_rbrk i -> existsb is_whitespace i = false -> ~ infix (lit "[^") i -> ~ In c_nl t ->
  free (lit "<""") (a ++ i ++ b ++ t) -> escaped i <> lit "1" ->
  exists h, renders (noted a i b t) h /\ infix (lit "<a href=""#fn:" ++ escaped i ++ lit """ ") h /\
    safe_html (on_id (lit "fn:" ++ escaped i)) h.
Proof.
  intros A A' B B' I1 I2 I3 T F N. eexists. split; [now apply noted_shown|]. split.
  - unfold with_nl. match goal with |- infix _ ((if ?c then _ else _) ++ _) => destruct c end.
    all: unfold p_tag, noteref_tag.
    all: eexists (lit "<p>" ++ txt a ++ lit "<sup id=""fnref:" ++ escaped i ++ lit """ role=""doc-noteref"">"), _.
    all: rewrite <- !app_assoc; repeat (f_equal; []).
    all: cbn [lit app]; rewrite ?app_nil_r; reflexivity.
  - apply (safe_mono other_id).
    + now apply other_on.
    + eapply harmless_ids; [now apply noted_shown|]. apply harmless_classes. right. right.
      intros c C J. apply (F c C). unfold noted in J. rewrite !in_app_iff in *.
      assert (K : ~ In c (lit "[^") /\ ~ In c (lit "]") /\ ~ In c blank_line /\ ~ In c (lit "]:") /\ ~ In c [c_nl]).
      { cbn in C. destruct C as [<-|[<-|[]]]; vm_compute; intuition discriminate. }
      tauto.
Qed.

(** ** Several references to one note *)
Definition noteref_id (i : str) : str := lit "<sup id=""fnref:" ++ escaped i ++ [c_quot].

Lemma occ_skip p a r : ~ In c_lt a -> occurrences (c_lt :: p) (a ++ r) = occurrences (c_lt :: p) r.
Proof.
  intros N. induction a as [|c a IH]; [reflexivity|]. cbn [app occurrences]. rewrite IH by (intros I; apply N; now right).
  cbn [starts_with]. destruct (ceq c_lt c) eqn:E; [|reflexivity]. apply ceq_eq in E. subst c. exfalso. apply N. now left.
Qed.
Lemma occ_self p r : ~ In c_lt p -> occurrences (c_lt :: p) ((c_lt :: p) ++ r) = S (occurrences (c_lt :: p) r).
Proof.
  intros N. cbn [app occurrences]. rewrite occ_skip by exact N.
  replace (starts_with (c_lt :: p) (c_lt :: p ++ r)) with true; [reflexivity|].
  symmetry. apply starts_with_iff. now exists r.
Qed.
Lemma occ_tag i n r : occurrences (noteref_id i) (note_tag n i ++ r) = S (occurrences (noteref_id i) r).
Proof.
  unfold noteref_id, note_tag. set (e := escaped i). assert (L : ~ In c_lt e) by apply escaped_no_lt. clearbody e.
  change (lit "<sup id=""fnref:" ++ e ++ [c_quot]) with (c_lt :: (lit "sup id=""fnref:" ++ e ++ [c_quot])).
  set (p := lit "sup id=""fnref:" ++ e ++ [c_quot]).
  assert (Np : ~ In c_lt p).
  { unfold p. rewrite !in_app_iff. intros [I|[I|I]]; [revert I; vm_compute; intuition discriminate | auto | revert I; vm_compute; intuition discriminate]. }
  replace ((lit "<sup id=""fnref:" ++ e ++ lit """ role=""doc-noteref""><a href=""#fn:" ++ e
    ++ lit """ class=""footnote"" rel=""footnote"">" ++ dec n ++ lit "</a></sup>") ++ r)
    with ((c_lt :: p) ++ (lit " role=""doc-noteref"">" ++ lit "<a href=""#fn:" ++ e
    ++ lit """ class=""footnote"" rel=""footnote"">" ++ dec n ++ lit "</a></sup>" ++ r)).
  2:{ change (c_lt :: p) with (lit "<sup id=""fnref:" ++ e ++ [c_quot]). rewrite <- !app_assoc. reflexivity. }
  rewrite occ_self by exact Np. f_equal. rewrite occ_skip by (vm_compute; intuition discriminate).
  transitivity (occurrences (c_lt :: p) (e ++ lit """ class=""footnote"" rel=""footnote"">" ++ dec n ++ lit "</a></sup>" ++ r)); [reflexivity|].
  rewrite occ_skip by exact L. rewrite occ_skip by (vm_compute; intuition discriminate).
  rewrite occ_skip by (apply Safety.not_digit; reflexivity). reflexivity.
Qed.

Lemma same_ids xs i b : xs <> [] -> Forall ref_ok xs -> Forall (fun x => snd x = i) xs -> trail b = true ->
  starts_in [c_colon; c_lpar] b = false ->
  exists h, renders (refs_text xs b) h /\ occurrences (noteref_id i) h = length xs.
Proof.
  intros NE F J T B. eexists. split; [now apply refs_renders|].
  assert (G : forall r k, occurrences (noteref_id i) (refs_html (fun _ => 1) k xs ++ r) = length xs + occurrences (noteref_id i) r).
  { intros r. clear NE F. induction J as [|[a j] xs E J IH]; intros k; [reflexivity|]. cbn [snd] in E. subst j.
    cbn [refs_html length]. rewrite <- !app_assoc. unfold noteref_id at 1. cbn [lit app].
    rewrite occ_skip by apply escaped_no_lt. change (occurrences (noteref_id i) (note_tag 1 i ++ refs_html (fun _ => 1) (S k) xs ++ r) = S (length xs) + occurrences (noteref_id i) r).
    rewrite occ_tag, IH. reflexivity. }
  unfold p_tag. rewrite <- !app_assoc.
  transitivity (occurrences (noteref_id i) (refs_html (fun _ => 1) 1 xs ++ txt b ++ lit "</p>" ++ [c_nl])); [reflexivity|].
  rewrite G. unfold noteref_id. cbn [lit app]. rewrite occ_skip by apply escaped_no_lt.
  cbn. apply Nat.add_0_r.
Qed.

(** The link back leads to the reference. *)
Lemma link_back a i b t : lead a = true -> starts_in [c_sp] a = false -> trail b = true ->
  starts_in (lit ":(*_~") b = false ->
  ~ In c_rbrk i -> existsb is_whitespace i = false -> ~ infix (lit "[^") i -> ~ In c_nl t ->
  exists h1 h2, renders (noted a i b t) (h1 ++ h2) /\ occurrences (noteref_id i) h1 = 1 /\
    occurrences (lit "<sup ") h2 = 0 /\ occurrences (lit "<a href=""#fnref:" ++ escaped i ++ [c_quot]) h2 = 1.
Proof.
  intros A A' B B' I1 I2 I3 T. eexists _, _. split; [now apply noted_shown|].
  assert (L : forall x, ~ In c_lt (escaped x)) by apply escaped_no_lt. split; [|split].
  - assert (E : with_nl (p_tag (txt a ++ noteref_tag i ++ txt b)) = p_tag (txt a ++ noteref_tag i ++ txt b)).
    { unfold with_nl, p_tag. rewrite !app_assoc. now rewrite (proj2 (ends_with_iff _ _)) by (eexists; reflexivity). }
    rewrite E. unfold p_tag. rewrite noteref_one, <- !app_assoc.
    transitivity (occurrences (noteref_id i) (txt a ++ note_tag 1 i ++ txt b ++ lit "</p>" ++ [c_nl])); [reflexivity|].
    unfold noteref_id at 1. cbn [lit app]. rewrite occ_skip by apply L.
    change (occurrences (noteref_id i) (note_tag 1 i ++ txt b ++ lit "</p>" ++ [c_nl]) = 1).
    rewrite occ_tag. f_equal. unfold noteref_id. cbn [lit app]. rewrite occ_skip by apply L. reflexivity.
  - unfold notes_html, note_li. cbn [map concat fst snd]. rewrite app_nil_r, <- !app_assoc.
    transitivity (occurrences (lit "<sup ") (escaped (trim t) ++ lit "<a href=""#fnref:" ++ escaped i
      ++ lit """ class=""reversefootnote"" role=""doc-backlink"">" ++ [8617%N]
      ++ lit "</a></p>" ++ [c_tab; c_tab] ++ lit "</li>" ++ [c_tab] ++ lit "</ol>" ++ [c_nl] ++ lit "</div>" ++ [c_nl])); [reflexivity|].
    change (lit "<sup ") with (c_lt :: lit "sup "). rewrite occ_skip by apply L.
    transitivity (occurrences (c_lt :: lit "sup ") (escaped i
      ++ lit """ class=""reversefootnote"" role=""doc-backlink"">" ++ [8617%N]
      ++ lit "</a></p>" ++ [c_tab; c_tab] ++ lit "</li>" ++ [c_tab] ++ lit "</ol>" ++ [c_nl] ++ lit "</div>" ++ [c_nl])); [reflexivity|].
    rewrite occ_skip by apply L. reflexivity.
  - unfold notes_html, note_li. cbn [map concat fst snd]. rewrite app_nil_r, <- !app_assoc.
    set (e := escaped i). assert (Le : ~ In c_lt e) by apply L. clearbody e.
    set (p := lit "a href=""#fnref:" ++ e ++ [c_quot]).
    assert (Np : ~ In c_lt p).
    { unfold p. rewrite !in_app_iff. intros [I|[I|I]]; [revert I; vm_compute; intuition discriminate | auto | revert I; vm_compute; intuition discriminate]. }
    change (lit "<a href=""#fnref:" ++ e ++ [c_quot]) with (c_lt :: p).
    transitivity (occurrences (c_lt :: p) (escaped (trim t) ++ (c_lt :: p)
      ++ lit " class=""reversefootnote"" role=""doc-backlink"">" ++ [8617%N]
      ++ lit "</a></p>" ++ [c_tab; c_tab] ++ lit "</li>" ++ [c_tab] ++ lit "</ol>" ++ [c_nl] ++ lit "</div>" ++ [c_nl])).
    { unfold p. change (c_lt :: lit "a href=""#fnref:" ++ e ++ [c_quot]) with (lit "<a href=""#fnref:" ++ e ++ [c_quot]).
      rewrite <- !app_assoc. reflexivity. }
    rewrite occ_skip by apply L. rewrite occ_self by exact Np. reflexivity.
Qed.

(** ** A reference to nothing *)
Lemma lone_reference a i b : lead a = true -> trail b = true -> starts_in (lit ":(*_~") b = false -> note_name i ->
  renders (a ++ lit "[^" ++ i ++ lit "]" ++ b) (p_tag (txt a ++ noteref_tag i ++ txt b)).
Proof.
  intros A B B' [N1 N2]. unfold lead in A. apply andb_true_iff in A as [A A3]. apply andb_true_iff in A as [A1 A2].
  apply negb_true_iff in A2, A3.
  assert (P : para (a ++ lit "[^" ++ i ++ lit "]" ++ b) (txt a ++ noteref_tag i ++ txt b)).
  { split; [|split].
    - replace (lit "[^" ++ i ++ lit "]" ++ b) with ((lit "[^" ++ i ++ lit "]") ++ b) by now rewrite <- !app_assoc.
      apply (in_span [c_colon; c_lpar]); auto; [now apply sp_noteref | now apply in_end].
    - unfold has_ink. rewrite existsb_app. cbn [lit app existsb]. apply orb_true_iff. right. reflexivity.
    - destruct a; [reflexivity | exact A2]. }
  pose proof (pgaps_renders _ _ [] P ltac:(constructor)) as R. cbn [map pgaps ptags concat] in R.
  unfold pgaps, ptags in R. cbn [map concat] in R. rewrite !app_nil_r in R. exact R.
Qed.
Lemma lone_target a i b : lead a = true -> trail b = true -> starts_in (lit ":(*_~") b = false -> note_name i ->
  free (lit "<""") (a ++ i ++ b) ->
  exists h, renders (a ++ lit "[^" ++ i ++ lit "]" ++ b) h /\ infix (noteref_tag i) h /\
    (escaped i <> lit "1" -> safe_html (on_id (lit "fn:" ++ escaped i)) h) /\ ~ infix (lit "<li") h.
Proof.
  intros A B B' N F. eexists. split; [now apply lone_reference|]. split; [|split].
  - unfold p_tag. exists (lit "<p>" ++ txt a), (txt b ++ lit "</p>" ++ [c_nl]). now rewrite <- !app_assoc.
  - intros O. apply (safe_mono other_id); [now apply other_on|]. eapply harmless_ids; [now apply lone_reference|].
    apply harmless_classes. right. right.
    intros c C J. apply (F c C). rewrite !in_app_iff in *.
    assert (K : ~ In c (lit "[^") /\ ~ In c (lit "]")).
    { cbn in C. destruct C as [<-|[<-|[]]]; vm_compute; intuition discriminate. }
    tauto.
  - apply occ_infix; [discriminate|]. change (lit "<li") with (c_lt :: lit "li").
    assert (L : forall x, ~ In c_lt (escaped x)) by apply escaped_no_lt. unfold p_tag, noteref_tag. rewrite <- !app_assoc.
    transitivity (occurrences (c_lt :: lit "li") (txt a ++ lit "<sup id=""fnref:" ++ escaped i ++ lit """ role=""doc-noteref""><a href=""#fn:" ++ escaped i
      ++ lit """ class=""footnote"" rel=""footnote"">1</a></sup>" ++ txt b ++ lit "</p>" ++ [c_nl])); [reflexivity|].
    rewrite occ_skip by apply L.
    transitivity (occurrences (c_lt :: lit "li") (escaped i ++ lit """ role=""doc-noteref""><a href=""#fn:" ++ escaped i
      ++ lit """ class=""footnote"" rel=""footnote"">1</a></sup>" ++ txt b ++ lit "</p>" ++ [c_nl])); [reflexivity|].
    rewrite occ_skip by apply L.
    transitivity (occurrences (c_lt :: lit "li") (escaped i
      ++ lit """ class=""footnote"" rel=""footnote"">1</a></sup>" ++ txt b ++ lit "</p>" ++ [c_nl])); [reflexivity|].
    rewrite occ_skip by apply L.
    transitivity (occurrences (c_lt :: lit "li") (txt b ++ lit "</p>" ++ [c_nl])); [reflexivity|].
    rewrite occ_skip by apply L. reflexivity.
Qed.

(** ** The text of a note *)
Definition markup_tags : list str := [lit "<em>"; lit "<strong>"; lit "<code>"; lit "<strike>"; lit "<img "; lit "<ul"; lit "<br"; lit "<h"].
Lemma note_plain tg ns : In tg markup_tags -> ~ infix tg (notes_html ns).
Proof.
  intros I. assert (L : forall x, ~ In c_lt (escaped x)) by apply escaped_no_lt.
  assert (G : exists p, tg = c_lt :: p /\
    (forall r, occurrences tg (lit "<li id=""fn:1"" role=""doc-endnote"">" ++ [c_tab; c_tab; c_tab] ++ lit "<p>" ++ r) = occurrences tg r) /\
    (forall r, occurrences tg (lit "<a href=""#fnref:" ++ r) = occurrences tg r) /\
    (forall r, occurrences tg (lit """ class=""reversefootnote"" role=""doc-backlink"">" ++ [8617%N] ++ lit "</a></p>" ++ [c_tab; c_tab] ++ lit "</li>" ++ r) = occurrences tg r) /\
    (forall r, occurrences tg ([c_tab; c_tab] ++ r) = occurrences tg r) /\
    (forall r, occurrences tg (lit "<div class=""footnotes"" role=""doc-endnotes"">" ++ [c_nl; c_tab] ++ lit "<ol>" ++ [c_nl] ++ r) = occurrences tg r) /\
    occurrences tg ([c_tab] ++ lit "</ol>" ++ [c_nl] ++ lit "</div>" ++ [c_nl]) = 0).
  { unfold markup_tags in I. cbn [In] in I.
    repeat (destruct I as [<-|I]; [eexists; split; [reflexivity|]; repeat split|]). destruct I. }
  clear I. destruct G as (p & -> & G1 & G2 & G3 & G4 & G5 & G6). apply occ_infix; [discriminate|].
  destruct ns as [|n ns]; [reflexivity|]. unfold notes_html. revert ns. generalize n. clear n.
  assert (H : forall ns r, occurrences (c_lt :: p) (concat (map note_li ns) ++ r) = occurrences (c_lt :: p) r).
  { induction ns as [|[i t] ns IH]; intros r; [reflexivity|]. cbn [map concat]. unfold note_li at 1. cbn [fst snd].
    rewrite <- !app_assoc, G4, G1, occ_skip, G2, occ_skip, G3 by apply L. apply IH. }
  intros n ns. rewrite G5, H. exact G6.
Qed.
Lemma note_as_written i t ns : In (i, t) ns -> infix (lit "<p>" ++ escaped t ++ lit "<a href=""#fnref:") (notes_html ns).
Proof.
  intros I. apply in_split in I as (x & y & ->).
  assert (E : notes_html (x ++ (i, t) :: y) = lit "<div class=""footnotes"" role=""doc-endnotes"">" ++ [c_nl; c_tab] ++ lit "<ol>" ++ [c_nl]
    ++ concat (map note_li (x ++ (i, t) :: y)) ++ [c_tab] ++ lit "</ol>" ++ [c_nl] ++ lit "</div>" ++ [c_nl]) by now destruct x.
  rewrite E, map_app, concat_app. cbn [map concat]. unfold note_li at 2. cbn [fst snd].
  eexists (lit "<div class=""footnotes"" role=""doc-endnotes"">" ++ [c_nl; c_tab] ++ lit "<ol>" ++ [c_nl] ++ concat (map note_li x)
    ++ [c_tab; c_tab] ++ lit "<li id=""fn:1"" role=""doc-endnote"">" ++ [c_tab; c_tab; c_tab]), _.
  rewrite <- !app_assoc. repeat (f_equal; []). reflexivity.
Qed.
Lemma notes_as_written xs : Forall chunk_ok xs ->
  exists h1 h2, renders (chunks_src xs) (h1 ++ h2) /\
    (forall i t k, In (CNote i t k) xs -> infix (lit "<p>" ++ escaped (trim t) ++ lit "<a href=""#fnref:") h2) /\
    Forall (fun tg => ~ infix tg h2) markup_tags.
Proof.
  intros F. eexists _, _. split; [exact (chunks_shown xs F)|]. split.
  - intros i t k I. apply (note_as_written i). unfold chunks_notes. apply in_concat. exists [(i, trim t)].
    split; [|now left]. apply in_map_iff. now exists (CNote i t k).
  - apply Forall_forall. intros tg I. now apply note_plain.
Qed.

(** ** A note in the middle of a line *)
Lemma note_in_line ps a i t b qs : paragraphs ps -> paragraphs qs -> lead a = true -> has_ink a = true ->
  ~ In c_rbrk i -> existsb is_whitespace i = false -> no_nl t ->
  paragraph b = true -> starts_in blank_chars b = false ->
  renders (before ps ++ a ++ lit "[^" ++ i ++ lit "]:" ++ t ++ [c_nl] ++ b ++ after qs)
    (p_tags ps ++ p_tag (txt a ++ txt b) ++ p_tags qs ++ notes_html [(i, trim t)]).
Proof.
  intros P Q A HA I1 I2 T B SB. unfold lead in A. apply andb_true_iff in A as [A A3]. apply andb_true_iff in A as [A1 A2].
  apply negb_true_iff in A2, A3.
  assert (TB : trail b = true /\ b <> []).
  { destruct (paragraph_parts _ B) as (B1 & B2 & B3 & B4). split; [|now apply has_ink_cons]. unfold trail. rewrite B1. now rewrite B4. }
  destruct TB as [TB NB].
  assert (S1 : starts_in blank_chars (b ++ after qs) = false) by (rewrite starts_in_app; auto).
  pose proof (trail_doc false false b qs TB Q) as D.
  pose proof (d_note false true false 0 i t (b ++ after qs) _ _ I1 I2 T S1 D) as K.
  assert (K0 : exists h0 f0, doc false false false 0 LNone ((lit "[^" ++ i ++ lit "]:" ++ t ++ [c_nl]) ++ b ++ after qs) h0 f0).
  { eexists _, _. apply d_note; auto. apply (para_doc' false false b (txt b)); [now apply inline_paragraph| |].
    - destruct qs as [|q qs]; [now left | right; eexists; reflexivity].
    - intros b0. now apply after_doc. }
  destruct K0 as (h0 & f0 & K0).
  set (r := (lit "[^" ++ i ++ lit "]:" ++ t ++ [c_nl]) ++ b ++ after qs) in *.
  assert (OB : ord_before r a = true) by (apply ord_ext; auto; discriminate).
  pose proof (ord_open false false r _ _ h0 f0 eq_refl K K0 (length a) a (le_n _) OB) as G. rewrite HA in G.
  apply displays_renders. eexists _, _. split.
  - replace (before ps ++ a ++ lit "[^" ++ i ++ lit "]:" ++ t ++ [c_nl] ++ b ++ after qs) with (before ps ++ a ++ r)
      by (unfold r; now rewrite <- !app_assoc).
    apply before_doc; [exact P| |exact G]. rewrite starts_in_app; [exact A2 | now apply has_ink_cons].
  - unfold add_note. cbn [f_code f_quote f_close f_notes]. rewrite fin_notes. unfold p_tag. cbn [close_p].
    match goal with |- _ = with_nl ?x ++ _ => assert (W : with_nl x = x) end.
    { destruct (p_tags_ends qs) as [->|[z ->]]; [rewrite app_nil_r|]; rewrite !app_assoc; apply with_nl_ends. }
    rewrite W, <- !app_assoc. reflexivity.
Qed.

(** ** A note that is not recognised *)
(** What is taken for a note at first: behind its line, [k] spaces. *)
Definition broken_note (i t : str) (k : nat) : str := lit "[^" ++ i ++ lit "]:" ++ t ++ [c_nl] ++ crep k c_sp.
(** The name has blanks, or the next line is indented, but not by two or four spaces. *)
Definition broken (i : str) (k : nat) : Prop :=
  (k = 0 /\ existsb is_whitespace i = true) \/ (1 <= k /\ k <> 2 /\ k <> 4).
Lemma broken_shown i t x k : ~ In c_rbrk i -> ~ In c_nl t -> ~ infix (lit "[^") (i ++ lit "]:" ++ t ++ [x]) ->
  is_whitespace x = false -> x <> c_rbrk -> broken i k ->
  shown_in_line renders [c_sp] (broken_note i (t ++ [x]) k) (i ++ lit "]:" ++ t ++ [x]).
Proof.
  intros N1 N2 N3 W X K. apply line_shown; [easy|reflexivity|]. intros b qs T Q S0.
  assert (L : forall cs, incl cs [c_sp; c_tab] -> starts_in cs (b ++ after qs) = false).
  { intros cs I. apply (trail_look _ [c_sp]); auto.
    - intros y J. apply I in J. revert y J. vm_compute; intuition.
    - intros J. apply I in J. revert J. vm_compute; intuition discriminate. }
  apply p_note_raw; auto. destruct K as [(-> & K)|(K1 & K2 & K4)]; [left|right].
  - split; [auto|]. split; [auto|]. apply L. intros y. vm_compute. tauto.
  - split; [auto|]. split; [auto|]. split; [auto|]. apply L. intros y. vm_compute. tauto.
Qed.
Lemma broken_script c : ~ In c_nl c -> ~ In c_lbrk c ->
  renders (lit "[^my note]: <script>" ++ c ++ lit "</script>" ++ [c_nl])
    (p_tag (lit "my note]: <script>" ++ c ++ lit "</script>")).
Proof.
  intros N1 N2.
  assert (K : shown_in_line renders [c_sp] (broken_note (lit "my note") ((lit " <script>" ++ c ++ lit "</script") ++ [c_gt]) 0)
    (lit "my note" ++ lit "]:" ++ (lit " <script>" ++ c ++ lit "</script") ++ [c_gt])).
  { apply broken_shown; [vm_compute; intuition discriminate| | |reflexivity|discriminate|left; now split].
    - rewrite !in_app_iff. intros [I|[I|I]]; [revert I; vm_compute; intuition discriminate | auto | revert I; vm_compute; intuition discriminate].
    - intros I. assert (J : In c_lbrk (lit "my note" ++ lit "]:" ++ (lit " <script>" ++ c ++ lit "</script") ++ [c_gt])).
      { eapply infix_In; [exact I | now left]. }
      rewrite !in_app_iff in J. destruct J as [J|[J|[[J|[J|J]]|J]]]; auto; revert J; vm_compute; intuition discriminate. }
  specialize (K [] [] [] [] ltac:(constructor) ltac:(constructor) eq_refl eq_refl eq_refl).
  change (txt []) with (@nil char) in K. change (before []) with (@nil char) in K. change (after []) with (@nil char) in K.
  change (p_tags []) with (@nil char) in K. unfold broken_note in K. change (crep 0 c_sp) with (@nil char) in K.
  rewrite !app_nil_r, !app_nil_l, <- !app_assoc in K. exact K.
Qed.

(** ** Documents of nothing but notes *)
Definition is_note (x : chunk) : Prop := match x with CNote _ _ _ => True | CPara _ _ => False end.
Lemma only_notes xs : Forall chunk_ok xs -> Forall is_note xs ->
  exists h, renders (chunks_src xs) (h ++ notes_html (chunks_notes xs)) /\ ~ infix (lit "<") h /\ length (chunks_notes xs) = length xs.
Proof.
  intros F N. eexists. split; [exact (chunks_shown xs F)|].
  assert (E : chunks_html xs = []).
  { unfold chunks_html. clear F. induction N as [|x xs X N IH]; [reflexivity|]. destruct x; [destruct X|exact IH]. }
  split.
  - fold (chunks_html xs). rewrite E. rewrite <- contains_iff. vm_compute. discriminate.
  - clear F E. unfold chunks_notes. induction N as [|x xs X N IH]; [reflexivity|]. destruct x; [destruct X|].
    cbn [map concat chunk_notes app length]. now rewrite IH.
Qed.
