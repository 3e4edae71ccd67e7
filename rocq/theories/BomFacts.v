(** * BomFacts: documents with a byte order mark.

    Facts behind PropertiesBom.v. *)
From Coq Require Import Ascii String.
From Verif Require Import Strings StringsFacts Token Iter Lexer Parser LexMono Master HtmlFacts Alike MetaFacts Utf8
  Markdown MarkdownFacts MarkdownSound SpecText TextFacts GfmFacts System Cli SpecCli CliMain CliRuns CliProps.
Open Scope list_scope.

(** U+FEFF, and its bytes. *)
Definition bom : char := 65279%N.
Definition bom_bytes : bytes := [239; 187; 191]%N.

(** ** The renderer only ever appends to its output *)
Section Keeps.
Variable P : str -> Prop.
Hypothesis P_app : forall h r, P h -> P (h ++ r).
Variable RENDER : str -> res str.
Variable PARSE : list token -> res str.

Lemma pre_keeps tok p : P (html p) -> P (html (pre tok p)).
Proof.
  intros H.
  assert (O : forall q, P (html q) -> P (html (open_par q))).
  { intros q Hq. unfold open_par. destruct (in_paragraph q); [exact Hq|]. cbn. apply P_app. exact Hq. }
  unfold pre. destruct tok; cbn [is_list_or_newline is_task_or_newline is_inline is_par_closer is_quote_or_newline andb];
    repeat match goal with |- context [if ?b then _ else _] => destruct b end;
    first [exact H | apply O; cbn [html push set_ol set_ul set_task]; apply P_app; exact H
          | cbn [html push set_ol set_ul set_task set_par set_quote set_code]; rewrite ?app_assoc; repeat apply P_app; exact H].
Qed.
Lemma body_keeps tok p p' : P (html p) -> body RENDER PARSE tok (pre tok p) = Ret p' -> P (html p').
Proof.
  intros H. apply (pre_keeps tok) in H. remember (pre tok p) as q eqn:Eq. clear Eq p.
  destruct tok; cbn [body]; try (intros X; apply Ret_inj in X; subst p'; cbn [html push]; now apply P_app).
  - destruct (is_blank _); intros X; apply Ret_inj in X; subst p'; cbn [html push]; auto.
  - destruct (mapM _ _); cbn [bind]; intros X; try discriminate X; apply Ret_inj in X; subst p'.
    destruct (in_unordered_list q); cbn [html push set_ul]; repeat apply P_app; exact H.
  - intros X; apply Ret_inj in X; subst p'.
    destruct (in_ordered_list q); cbn [html push set_ol]; repeat apply P_app; exact H.
  - intros X; apply Ret_inj in X; subst p'. exact H.
  - intros X; apply Ret_inj in X; subst p'. exact H.
  - intros X; apply Ret_inj in X; subst p'. exact H.
  - destruct (is_empty t); [|destruct (RENDER _); cbn [bind]]; intros X; try discriminate X; apply Ret_inj in X; subst p';
      destruct (in_paragraph q); cbn [html push set_par set_quote]; repeat apply P_app; exact H.
  - destruct (PARSE _); cbn [bind]; intros X; try discriminate X; apply Ret_inj in X; subst p'.
    destruct (in_paragraph q); cbn [html push set_par]; repeat apply P_app; exact H.
  - destruct (row0_len rows) as [k|]; [|discriminate]. destruct (negb _).
    + intros X; apply Ret_inj in X; subst p'. exact H.
    + destruct (table_html _ _ _); cbn [bind]; intros X; try discriminate X; apply Ret_inj in X; subst p'. cbn [html push]. now apply P_app.
  - intros X; apply Ret_inj in X; subst p'.
    destruct (in_task_list q); cbn [html push set_task]; repeat apply P_app; exact H.
  - intros X; apply Ret_inj in X; subst p'. exact H.
Qed.
Lemma loop_keeps ts : forall p p', P (html p) -> parse_loop RENDER PARSE ts p = Ret p' -> P (html p').
Proof.
  induction ts as [|t ts IH]; intros p p' H; cbn [parse_loop]; [intros X; injection X as <-; exact H|].
  destruct (body RENDER PARSE t (pre t p)) as [p1| |] eqn:B; cbn [bind]; try discriminate.
  apply IH. exact (body_keeps t p p1 H B).
Qed.
Lemma finish_keeps q : P (html q) -> P (finish q).
Proof.
  intros H. unfold finish. cbv zeta.
  assert (K : P ((((html q ++ (if in_paragraph q then lit "</p>" ++ [c_nl] else [])) ++
    nrep (quote_level q) (lit "</blockquote>" ++ [c_nl])) ++
    (if in_task_list q || in_unordered_list q then lit "</ul>" else [])) ++
    (if in_ordered_list q then lit "</ol>" else []))) by (repeat apply P_app; exact H).
  revert K. generalize ((((html q ++ (if in_paragraph q then lit "</p>" ++ [c_nl] else [])) ++
    nrep (quote_level q) (lit "</blockquote>" ++ [c_nl])) ++
    (if in_task_list q || in_unordered_list q then lit "</ul>" else [])) ++
    (if in_ordered_list q then lit "</ol>" else [])). intros h K.
  apply P_app. destruct (in_code q), (ends_nl h);
    repeat match goal with |- context [if ?b then _ else _] => destruct b end; repeat apply P_app; exact K.
Qed.
End Keeps.

(** ** The mark is shown, whatever follows *)
Lemma bom_token LEX REN n last s : next_token LEX REN n [] last (bom :: s) = Ret (Some (Plaintext [bom], s)).
Proof. reflexivity. Qed.
Lemma bom_shown s h : renders (bom :: s) h -> exists r, h = lit "<p>" ++ [bom] ++ r.
Proof.
  intros [[|n] E]; [discriminate E|]. revert E. unfold render, render_ignore. cbn [lex length]. set (LL := lex_loop _ _ _).
  assert (X : LL (S (S (length s))) [] None (bom :: s) = bind (LL (S (length s)) [] (Some (Plaintext [bom])) s) (fun ts => Ret (Plaintext [bom] :: ts)))
    by reflexivity.
  rewrite X. clear X. destruct (LL _ _ _ s) as [ts| |]; cbn [bind]; try discriminate.
  cbn [parse]. unfold parse_body. set (RE := fun s => bind (lex n s []) (parse n)). cbn [parse_loop].
  assert (B : body RE (parse n) (Plaintext [bom]) (pre (Plaintext [bom]) pinit) = Ret (set_par true (push (lit "<p>" ++ [bom]) pinit))) by reflexivity.
  rewrite B. cbn [bind]. clear B. destruct (parse_loop _ _ ts _) as [p| |] eqn:L; cbn [bind]; try discriminate.
  intros X. apply Ret_inj in X. subst h.
  set (P := fun h : str => exists r, h = lit "<p>" ++ [bom] ++ r).
  assert (PA : forall h r, P h -> P (h ++ r)) by (intros h r [x ->]; exists (x ++ r); reflexivity).
  apply (finish_keeps P PA). apply (loop_keeps P PA) in L; [exact L|]. exists []. reflexivity.
Qed.

(** ** A document without the mark never shows it *)
Definition other (c : char) : char := if N.eqb c bom then 233%N else c.
Lemma no_bom s h : ~ In bom s -> renders s h -> ~ In bom h.
Proof.
  intros N R.
  assert (M : forall t, ~ In bom t -> map other t = t).
  { intros t I. rewrite <- (map_id t) at 2. apply map_ext_in. intros c J. unfold other. destruct (N.eqb_spec c bom) as [->|_]; [easy|reflexivity]. }
  destruct (letters_alike other) with (s := s) as (A & _).
  - intros c H. unfold other. destruct (N.eqb_spec c bom) as [->|_]; [destruct H as [H|H]; discriminate H|reflexivity].
  - intros c H W. unfold other. destruct (N.eqb c bom); [split; [lia|reflexivity]|auto].
  - reflexivity.
  - pose proof (A h R) as R'. rewrite (M s N) in R'. pose proof (renders_unique _ _ _ R R') as E. rewrite E. intros I.
    apply in_map_iff in I as (c & I & _). unfold other in I. destruct (N.eqb_spec c bom) as [_|NE]; [discriminate I|now elim NE].
Qed.
Lemma bom_differs s h h' : ~ In bom s -> renders s h -> renders (bom :: s) h' -> h <> h'.
Proof.
  intros N R R' <-. apply bom_shown in R' as [r ->]. apply (no_bom s _ N R). apply in_or_app. right. now left.
Qed.

(** ** Blocks behind the mark *)
Lemma bom_piece hd r : piece hd r [bom] true [bom].
Proof. exact (p_char hd r bom eq_refl). Qed.
Lemma bom_heading n t e qs : 1 <= n <= 6 -> heading_ordinary t -> heading_end e -> paragraphs qs ->
  renders (bom :: heading_src n t e ++ after qs) (p_tag [bom] ++ h_tag n (txt t) ++ p_tags qs).
Proof.
  intros B O E Q. pose proof (heading_ordinary_block n t e B O E true _ _ _ (after_line_end qs) (after_doc false false qs Q false)) as D.
  cbn [close_p app] in D.
  pose proof (d_open false false 0 LNone _ _ _ _ _ (bom_piece false (heading_src n t e ++ after qs)) D) as D0. apply doc_renders in D0.
  cbn [times repeat concat app] in D0. unfold p_tag.
  assert (W : forall z, with_nl (z ++ h_tag n (txt t) ++ p_tags qs) = z ++ h_tag n (txt t) ++ p_tags qs).
  { intros z. unfold h_tag. destruct (p_tags_ends qs) as [->|[y ->]]; [rewrite app_nil_r|]; rewrite !app_assoc; apply with_nl_ends. }
  match type of D0 with renders _ (with_nl ?x) =>
    assert (X : x = (lit "<p>" ++ [bom] ++ lit "</p>" ++ [c_nl]) ++ h_tag n (txt t) ++ p_tags qs) by (rewrite <- !app_assoc; reflexivity); rewrite X, W in D0 end.
  exact D0.
Qed.

(** Paragraphs: the mark is a char of the first of them. *)
Lemma bom_paragraph p qs : paragraph p = true -> paragraphs qs ->
  renders (bom :: p ++ after qs) (p_tag (bom :: txt p) ++ p_tags qs).
Proof.
  intros P Q. assert (B : paragraph (bom :: p) = true).
  { unfold paragraph in *. rewrite !andb_true_iff in P. destruct P as (((O & I) & S1) & S2).
    change (ordinary (bom :: p)) with (ordinary p). change (has_ink (bom :: p)) with true. change (starts_in [c_nl] (bom :: p)) with false.
    rewrite O. cbn [rev andb negb]. destruct (rev p); [reflexivity|exact S2]. }
  exact (paragraphs_shown [] (bom :: p) qs (Forall_nil _) B Q).
Qed.

(** ** The bytes *)
Lemma bom_decoded bs s : decode (bom_bytes ++ bs) = Some s <-> exists s', s = bom :: s' /\ decode bs = Some s'.
Proof.
  split.
  - assert (G : forall k, dec_go (S k) (bom_bytes ++ bs) = match dec_go k bs with Some x => Some (bom :: x) | None => None end) by reflexivity.
    intros D. unfold decode in D. cbn [length app bom_bytes] in D. change (239%N :: 187%N :: 191%N :: bs) with (bom_bytes ++ bs) in D. rewrite G in D.
    destruct (dec_go _ bs) as [s'|] eqn:E'; [|discriminate D]. injection D as <-. exists s'. split; [reflexivity|].
    apply dec_go_sound in E' as [<- V']. now apply decode_encode.
  - intros (s' & -> & D). apply encode_decode in D as [<- V]. change bom_bytes with (encode [bom]).
    rewrite <- encode_app. apply decode_encode. constructor; [|exact V]. apply scalarb_spec. reflexivity.
Qed.

(** ** The program *)
Lemma bom_written n st m f xs input f' p' b : new_process m f -> Forall no_short xs ->
  exec xs f (start m (main n st (CParse input Html))) = (f', p') -> status p' = Some 0 ->
  contents f input = Some (bom_bytes ++ b) ->
  exists out r, replaced (lit "html") input out /\ contents f' out = Some (lit "<p>" ++ bom_bytes ++ r).
Proof.
  intros N X E S C. destruct (html_written n st m f xs input f' p' N X E S) as (b' & s & h & out & C' & D & R & RP & W & _).
  rewrite C in C'. injection C' as <-. apply bom_decoded in D as (s' & -> & _). apply bom_shown in R as [r ->].
  exists out, (encode r). split; [exact RP|]. rewrite W, !encode_app. reflexivity.
Qed.

(** An example: /w/m.md, written by an editor of Windows. *)
Definition marked_disk : fs := sample_disk [([lit "w"; lit "m.md"], NFile (0, 3))] [((0, 3), bom_bytes ++ lit "# A")].
Definition marked_run : fs * proc nat :=
  exec (oks 9) marked_disk (start (sample_machine 1) (main 100 sample_settings (CParse [lit "w"; lit "m.md"] Html))).
