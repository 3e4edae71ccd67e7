(** * Properties: injected markup and link schemes (C03, C04, C05, C06, C30, C63).

    Vocabulary: [safe_html bad h] (Html.v) says that [h] is a sequence of
    characters other than '<' and of tags of a fixed list, whose open attribute
    values contain neither double quotes nor '<' and are not [bad]; [is_javascript]
    and [is_data_not_image] are how a browser recognises a scheme. *)
From Coq Require Import Ascii String.
From Verif Require Import Strings StringsFacts Token Iter Lexer Parser LexerFacts SanitizeFacts
  Html HtmlFacts LinkFacts SafeClasses Decode DecodeFacts RawHtml Balance Nesting.
Open Scope list_scope.

(** ** C03: no injected markup *)

(** The full statement, [forall s h, renders s h -> safe_html no_bad h], is false:
    any text at all can be copied to the output without escaping. *)
Theorem C03_raw_text : forall x,
  ~ In c_rbrk x -> ~ infix (lit "[^") (lit "[" ++ x) ->
  exists after, renders (lit "[" ++ x ++ lit "[^a]") (lit "<p>[" ++ x ++ after).
Proof. intros x N1 N2. eexists. exact (raw_text x N1 N2). Qed.
Print Assumptions C03_raw_text.
Example C03_raw_text_ex : ~ infix (lit "[^") (lit "[" ++ lit "<script>alert(1)</script>").
Proof. rewrite <- contains_iff. vm_compute. discriminate. Qed.

Theorem C03_safe_refuted : exists s h, renders s h /\ ~ safe_html no_bad h.
Proof.
  exists (lit "[<script>alert(1)</script>[^a]"). eexists. split.
  - exact (raw_text (lit "<script>alert(1)</script>") ltac:(vm_compute; intuition discriminate) C03_raw_text_ex).
  - apply (unsafe no_bad (lit "<p>[")). vm_compute. reflexivity.
Qed.
Print Assumptions C03_safe_refuted.
(** Two more ways: the text of an autolink, and a double quote in a url. *)
Theorem C03_autolink_refuted : exists s h, ~ In c_lbrk s /\ renders s h /\ ~ safe_html no_bad h.
Proof.
  exists (lit "<ab:<img/src=x/onerror=alert(1)/>"). eexists. split; [vm_compute; intuition discriminate|]. split.
  - exists 3. vm_compute. reflexivity.
  - intros S. apply run_complete in S. vm_compute in S. discriminate S.
Qed.
Print Assumptions C03_autolink_refuted.
Theorem C03_quote_refuted : exists s h, ~ In c_lt s /\ renders s h /\ ~ safe_html no_bad h.
Proof.
  exists (lit "[a](x""onmouseover=""alert)"). eexists. split; [vm_compute; intuition discriminate|]. split.
  - exists 3. vm_compute. reflexivity.
  - intros S. apply run_complete in S. vm_compute in S. discriminate S.
Qed.
Print Assumptions C03_quote_refuted.

(** It is true if none of these three happens ([harmless], Html.v): there is no '<'
    or no "[^"; no destination of a link or image has a '<' or a double quote, no
    title a '<'; and what stands between '<' and '>' has no ':' and '@', or no '<'
    and double quote.
    Missing: documents which do have these texts, but where the renderer does not
    take them for footnote references, destinations and autolinks. *)
Theorem C03_safe_partial : forall s h, renders s h -> harmless s -> safe_html no_bad h.
Proof.
  intros s h R (H1 & H2 & H3).
  apply (urls_safe no_bad no_bad_ok _ (fun _ _ => True) _ (fun _ _ H => H) (fun _ H => H)) with (s := s); auto.
  split; [exact H1|]. split; [exact H2|]. split; [repeat intro; exact I | exact H3].
Qed.
Print Assumptions C03_safe_partial.
(** In particular it is true of documents without '[', ':' and '@', without '[' and
    '<', or without '<' and double quotes. *)
Theorem C03_classes : forall s,
  free (lit "[:@") s \/ free (lit "[<") s \/ free (lit "<""") s -> harmless s.
Proof. exact harmless_classes. Qed.
Print Assumptions C03_classes.
Example C03_safe_partial_ex :
  free (lit "[:@") (lit "# <b onclick='x'> & *c* `<i>`" ++ [c_nl] ++ lit "> <script>") /\
  free (lit "<""") (lit "[a](b) ![c](d) [^e]: f | # {#g}") /\
  harmless (lit "<b>""x"": <script>alert('[a](b ""t"") @')</script> <http://c/d> ![e](f) <g@h>").
Proof.
  split; [|split].
  1,2: intros c I; repeat (destruct I as [<-|I]; [vm_compute; intuition discriminate|]); destruct I.
  apply harmless_checked. vm_compute. reflexivity.
Qed.

(** ** C04: no javascript: links *)

(** Whatever is accepted as the destination of a link is printed with another
    scheme than javascript: true of every string. *)
Theorem C04_link_destinations : forall src u,
  validate_link src = inl u -> is_javascript (fmt_url u) = false.
Proof. exact not_javascript. Qed.
Print Assumptions C04_link_destinations.
Example C04_link_destinations_ex : exists u,
  validate_link (lit "JavaScript1:alert(1)") = inl u /\ is_javascript (lit " jAva" ++ [c_nl] ++ lit "script:x") = true.
Proof. eexists. split; vm_compute; reflexivity. Qed.

(** The full statement is false for images, whose destination is printed after its
    own scheme has been removed: *)
Theorem C04_images_refuted : exists s h v,
  renders s h /\ infix (lit "<img src=""" ++ v ++ lit """") h /\ is_javascript v = true.
Proof.
  exists (lit "![a](x1:javascript:alert(1))"). eexists. exists (lit "javascript:alert(1").
  split; [|split].
  - exists 3. vm_compute. reflexivity.
  - apply contains_iff. vm_compute. reflexivity.
  - reflexivity.
Qed.
Print Assumptions C04_images_refuted.

(** ... or not recognised because of a control character in front, which browsers
    skip: *)
Theorem C04_control_refuted : exists s h v,
  renders s h /\ infix (lit "<img src=""" ++ v ++ lit """") h /\ is_javascript v = true.
Proof.
  exists (lit "![a](" ++ [1%N] ++ lit "javascript:alert`1`)"). eexists. exists ([1%N] ++ lit "javascript:alert`1`").
  split; [|split].
  - exists 3. vm_compute. reflexivity.
  - apply contains_iff. vm_compute. reflexivity.
  - reflexivity.
Qed.
Print Assumptions C04_control_refuted.

(** It is true of the links of whole documents in the class of C03, and of links
    and images if the destinations of images are relative or have "://" after
    their scheme ([plain_src], Html.v). *)
Theorem C04_no_javascript_partial : forall s h, renders s h -> harmless s ->
  safe_html (on_href is_javascript) h.
Proof.
  intros s h R (H1 & H2 & H3).
  apply (urls_safe _ javascript_href_ok _ (fun _ _ => True) _ (fun _ _ H => H) (fun _ H => H)) with (s := s); auto.
  - intros k src e u _ V H. unfold on_href. rewrite H. cbn [andb]. eapply not_javascript; eauto.
  - intros k src u _ V H. unfold on_href. rewrite H. cbn [andb]. eapply not_javascript; eauto.
  - intros k src e u _ _ H. unfold on_href. now rewrite href_not_src.
  - split; [exact H1|]. split; [exact H2|]. split; [repeat intro; exact I | exact H3].
Qed.
Print Assumptions C04_no_javascript_partial.
Theorem C04_no_javascript_src_partial : forall s h, renders s h -> harmless s ->
  dests [c_bang] (fun d _ => plain_src d) s ->
  safe_html (on_href_src is_javascript) h.
Proof.
  intros s h R (H1 & H2 & H3) H4.
  apply (urls_safe _ javascript_ok _ (fun d _ => plain_src d) _ (fun _ _ H => H) (fun _ H => H)) with (s := s); auto.
  - intros k src e u _ V H. unfold on_href_src. rewrite (not_javascript _ _ V). apply andb_false_r.
  - intros k src u _ V H. unfold on_href_src. rewrite (not_javascript _ _ V). apply andb_false_r.
  - intros k src e u P V H. unfold on_href_src. rewrite (plain_src_ok _ _ V P). apply andb_false_r.
  - split; [exact H1|]. split; [exact H2|]. split; [exact H4 | exact H3].
Qed.
Print Assumptions C04_no_javascript_src_partial.
Example C04_src_ex : forall t d c e,
  infix ([c_bang] ++ c_lbrk :: t ++ lit "](" ++ d ++ c :: e) (lit "![a](https://b:1/c.png) ![](d.png ""e: f"")") ->
  ~ In c_rbrk t -> ~ In c_rpar d -> ~ In c_sp d -> (c = c_rpar /\ e = []) \/ (c = c_sp /\ ~ In c_rpar e) ->
  plain_src d.
Proof.
  change (dests [c_bang] (fun d _ => plain_src d) (lit "![a](https://b:1/c.png) ![](d.png ""e: f"")")).
  apply (dests_check [c_bang] (fun d _ => str_eqb d (lit "https://b:1/c.png") || str_eqb d (lit "d.png"))).
  - intros d _ _ H. apply orb_true_iff in H as [H|H]; apply str_eqb_eq in H; subst d.
    + right. exists (lit "https"), (lit "b:1/c.png"). split; [reflexivity|]. split; [cbn; lia | reflexivity].
    + left. vm_compute. intuition discriminate.
  - vm_compute. reflexivity.
Qed.

(** ** C05: data: links only for images *)

(** Whatever is accepted as a destination and has no '@' is printed with another
    scheme than data, or is an image. *)
Theorem C05_link_destinations_partial : forall src u,
  validate_link src = inl u -> ~ In c_at src -> is_data_not_image (fmt_url u) = false.
Proof. exact not_data. Qed.
Print Assumptions C05_link_destinations_partial.
Example C05_link_destinations_ex : exists u,
  validate_link (lit "Data:image/png;base64,AA") = inl u /\ is_data_not_image (lit "DATA:text/html,x") = true.
Proof. eexists. split; vm_compute; reflexivity. Qed.

(** The full statement is false with '@': *)
Theorem C05_data_refuted : exists s h v,
  renders s h /\ infix (lit "<a href=""" ++ v ++ lit """>") h /\ is_data_not_image v = true.
Proof.
  exists (lit "[a](data:image/:text/html,x@)"). eexists. exists (lit "data:text/html,x@").
  split; [|split].
  - exists 3. vm_compute. reflexivity.
  - apply contains_iff. vm_compute. reflexivity.
  - reflexivity.
Qed.
Print Assumptions C05_data_refuted.

(** It is true of whole documents in the class of C03 if no destination and
    autolink has an '@'. *)
Theorem C05_data_partial : forall s h, renders s h -> harmless s ->
  dests [] (fun d _ => ~ In c_at d) s -> angles (fun d => ~ In c_at d) s ->
  safe_html (on_href is_data_not_image) h.
Proof.
  intros s h R (H1 & H2 & H3) H4 H5.
  apply (urls_safe _ data_ok (fun d e => (clean_value d /\ ~ In c_lt e) /\ ~ In c_at d) (fun _ _ => True)
           (fun d => (no_url d \/ clean_value d) /\ ~ In c_at d)) with (s := s); auto.
  - now intros d e [H _].
  - now intros d [H _].
  - intros k src e u [_ N] V H. unfold on_href. rewrite H. cbn [andb]. now apply (not_data src).
  - intros k src u [_ N] V H. unfold on_href. rewrite H. cbn [andb]. now apply (not_data src).
  - intros k src e u _ _ H. unfold on_href. now rewrite href_not_src.
  - split; [exact H1|]. split; [now apply dests_and|]. split; [repeat intro; exact I | now apply angles_and].
Qed.
Print Assumptions C05_data_partial.
Example C05_data_ex : let s := lit "a@b <http://c> [d](data:image/png;e) <f>" in
  harmless s /\ dests [] (fun d _ => ~ In c_at d) s /\ angles (fun d => ~ In c_at d) s.
Proof.
  cbv zeta. split; [apply harmless_checked; vm_compute; reflexivity|]. split.
  - apply (dests_check [] (fun d _ => negb (mem_char c_at d))); [|vm_compute; reflexivity].
    intros d _ _. apply not_mem.
  - apply (angles_check (fun d => negb (mem_char c_at d))); [|vm_compute; reflexivity]. exact (not_mem c_at).
Qed.

(** ** C06: escaping *)

(** [html5 named]: [named] is the table of character references of the HTML
    standard, as far as it matters (Decode.v). *)

(** No character that could end the surrounding context. *)
Theorem C06_complete : forall t c, In c (sanitize t) ->
  c <> c_lt /\ c <> c_gt /\ c <> c_quot /\ c <> c_apos.
Proof.
  intros t c I. apply sanitize_no_special in I.
  repeat split; intros ->; discriminate I.
Qed.
Print Assumptions C06_complete.

(** Losslessness is false: a browser shows another character for '~' (and '|'). *)
Theorem C06_lossless_refuted : exists t, forall named, html5 named ->
  decode named (sanitize t) <> filter (fun c => negb (ceq c c_bslash)) t.
Proof.
  exists (lit "a ~ b"). intros named H. rewrite decode_sanitize by exact H. vm_compute. discriminate.
Qed.
Print Assumptions C06_lossless_refuted.

(** What a browser shows, for every text: everything but backslashes, with U+2223
    for '|' and U+02DC for '~'. *)
Theorem C06_decoded : forall named t, html5 named ->
  decode named (sanitize t) =
  map (fun c => if ceq c c_pipe then 8739%N else if ceq c c_tilde then 732%N else c)
      (filter (fun c => negb (ceq c c_bslash)) t).
Proof.
  intros named t H. rewrite decode_sanitize by exact H.
  induction t as [|c t IH]; [reflexivity|]. cbn [flat_map filter]. rewrite IH. unfold shown.
  destruct (ceq c c_bslash) eqn:E; cbn [negb map app]; [reflexivity|].
  destruct (ceq c c_pipe); [reflexivity|]. destruct (ceq c c_tilde); reflexivity.
Qed.
Print Assumptions C06_decoded.
Theorem C06_lossless_partial : forall named t, html5 named -> ~ In c_pipe t -> ~ In c_tilde t ->
  decode named (sanitize t) = filter (fun c => negb (ceq c c_bslash)) t.
Proof. intros named t H N1 N2. rewrite decode_sanitize by exact H. now apply shown_lossless. Qed.
Print Assumptions C06_lossless_partial.
Example C06_ex : html5 html5_min /\
  sanitize (lit "<a&lt;b>") = lit "&lt;a&amp;lt;b&gt;" /\
  decode html5_min (lit "&lt;a&amp;lt;b&gt;") = lit "<a&lt;b>".
Proof. split; [exact html5_min_ok | split; vm_compute; reflexivity]. Qed.

(** ** C30: as many start as end tags

    [no_leak s] (Html.v): no destination, title and autolink of [s] has a '<', and [s]
    has no '<' or no "[^", so that no '<' of the document gets into the output (C03).  [opens e h] and [closes e h] count
    the places in [h] where a start or an end tag of the element [e] begins. *)

(** For such documents the full statement is false: a task list that follows a
    bullet list in a numbered list is not ended. *)
Theorem C30_balanced_refuted : exists s h, no_leak s /\ renders s h /\
  opens (lit "ul") h = 2 /\ closes (lit "ul") h = 1.
Proof.
  exists (lit "1. a" ++ [c_nl] ++ lit "- b" ++ [c_nl] ++ lit "- [ ] c"). eexists. split; [|split; [|split]].
  - apply no_leak_lt. vm_compute. intuition discriminate.
  - exists 6. vm_compute. reflexivity.
  - vm_compute. reflexivity.
  - vm_compute. reflexivity.
Qed.
Print Assumptions C30_balanced_refuted.

(** For all other elements it is true, *)
Theorem C30_balanced_partial : forall e s h, In e elements -> e <> lit "ul" -> no_leak s ->
  renders s h -> opens e h = closes e h.
Proof. exact balanced. Qed.
Print Assumptions C30_balanced_partial.

(** for [ul] if nothing in the document looks like a task, *)
Theorem C30_ul_partial : forall s h, no_leak s -> ~ boxed s -> renders s h ->
  opens (lit "ul") h = closes (lit "ul") h.
Proof. exact ul_balanced. Qed.
Print Assumptions C30_ul_partial.

(** and in any case no [ul] is ended that was not begun. *)
Theorem C30_ul_at_most_partial : forall s h, no_leak s -> renders s h ->
  closes (lit "ul") h <= opens (lit "ul") h.
Proof. exact ul_more. Qed.
Print Assumptions C30_ul_at_most_partial.

Example C30_doc : str :=
  lit "> a" ++ [c_nl] ++ lit "- *b*" ++ [c_nl] ++ lit "1. c ""d"" [e](f ""g"")" ++ [c_nl; c_nl] ++ lit "<i> g `h`: <b@c>".
Example C30_case : no_leak C30_doc /\ ~ boxed C30_doc /\
  exists h, renders C30_doc h /\ opens (lit "p") h = 3 /\ opens (lit "ul") h = 1 /\ closes (lit "em") h = 1.
Proof.
  split; [|split].
  - apply no_leak_harmless, harmless_checked. vm_compute. reflexivity.
  - intros [I|[I|I]]; apply contains_iff in I; vm_compute in I; discriminate.
  - eexists. split; [exists 8; vm_compute; reflexivity|]. repeat split; vm_compute; reflexivity.
Qed.

(** ** C63: elements are closed in the order they were opened *)

(** The full statement, [nested h] for every rendering, is false: inline code is
    closed after the paragraph it is in, *)
Theorem C63_code_refuted : exists s h, no_leak s /\ renders s h /\ ~ nested h.
Proof.
  exists (lit "a `b` c"). eexists. split; [|split].
  - apply no_leak_lt. vm_compute. intuition discriminate.
  - exists 6. vm_compute. reflexivity.
  - vm_compute. discriminate.
Qed.
Print Assumptions C63_code_refuted.
(** a hyphen in a word opens a list in the paragraph which is closed after it, *)
Theorem C63_list_refuted : exists s h, no_leak s /\ free (lit "`") s /\ renders s h /\ ~ nested h.
Proof.
  exists (lit "x-y"). eexists. split; [|split; [|split]].
  - apply no_leak_lt. vm_compute. intuition discriminate.
  - intros c [<-|[]]. vm_compute. intuition discriminate.
  - exists 6. vm_compute. reflexivity.
  - vm_compute. discriminate.
Qed.
Print Assumptions C63_list_refuted.
(** and from a heading of two images the first and the last tag are removed, which
    do not belong together. *)
Theorem C63_heading_refuted : exists s h, calm s /\ renders s h /\ ~ nested h.
Proof.
  exists (lit "# ![a](b)![c](d)"). eexists. split; [|split].
  - split; [now apply free_lit|]. repeat split; try (apply not_infix_lit; reflexivity).
    intros d _ I. apply (infix_In _ _ c_dot) in I; [|right; now left]. revert I. vm_compute. intuition discriminate.
  - exists 6. vm_compute. reflexivity.
  - vm_compute. discriminate.
Qed.
Print Assumptions C63_heading_refuted.

(** It is true of documents with nothing that may become code or a list item, if
    there are no block quotes and no images, or no headings and no backslashes. *)
Theorem C63_nested_partial : forall s h, calm s ->
  free (lit ">!") s \/ free (lit ">[") s \/ free (lit "#\") s -> renders s h -> nested h.
Proof. exact calm_nested. Qed.
Print Assumptions C63_nested_partial.

Example C63_doc1 : str :=
  lit "# a *b*, [c](d) \# e" ++ [c_nl; c_nl] ++ lit "f **g**; ~~h~~ 3.14" ++ [c_nl; c_nl] ++ lit "|i|" ++ [c_nl]
  ++ lit "|:|" ++ [c_nl] ++ lit "|_j_|" ++ [c_nl] ++ lit "[^k]: l" ++ [c_nl].
Example C63_doc2 : str :=
  lit "> a (*b*)" ++ [c_nl] ++ lit ">>> d" ++ [c_nl; c_nl] ++ lit "e ![f](g) ***h***" ++ [c_nl] ++ lit "> 1.".
Example C63_case :
  calm C63_doc1 /\ free (lit ">!") C63_doc1 /\ (exists h, renders C63_doc1 h /\ opens (lit "a") h = 2 /\ opens (lit "td") h = 1) /\
  calm C63_doc2 /\ free (lit "#\") C63_doc2 /\ exists h, renders C63_doc2 h /\ opens (lit "blockquote") h = 4.
Proof.
  assert (D : forall s, (forall d, In d (lit "0123456789") -> contains (d :: lit ". ") s = false) ->
    forall d, is_digit d = true -> ~ infix (d :: lit ". ") s).
  { intros s H d Hd I. apply contains_iff in I. rewrite H in I; [discriminate|]. revert Hd. unfold is_digit.
    intros Hd. apply andb_true_iff in Hd as [A B]. apply N.leb_le in A. apply N.leb_le in B.
    assert (C : (d = 48 \/ d = 49 \/ d = 50 \/ d = 51 \/ d = 52 \/ d = 53 \/ d = 54 \/ d = 55 \/ d = 56 \/ d = 57)%N) by lia.
    repeat (destruct C as [->|C]; [cbn; tauto|]). subst. cbn. tauto. }
  split; [|split; [|split; [|split; [|split]]]].
  - split; [now apply free_lit|]. repeat split; try (apply not_infix_lit; vm_compute; reflexivity).
    apply D. apply Forall_forall. repeat constructor.
  - now apply free_lit.
  - eexists. split; [exists 8; vm_compute; reflexivity|]. split; vm_compute; reflexivity.
  - split; [now apply free_lit|]. repeat split; try (apply not_infix_lit; vm_compute; reflexivity).
    apply D. apply Forall_forall. repeat constructor.
  - now apply free_lit.
  - eexists. split; [exists 8; vm_compute; reflexivity|]. vm_compute. reflexivity.
Qed.
