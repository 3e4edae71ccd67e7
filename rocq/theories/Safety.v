(** * Safety: the output of documents of certain classes is accepted by the
    tokenizer of HtmlFacts.v. *)
From Coq Require Import Ascii String.
From Coq Require DecimalString.
From Verif Require Import Strings StringsFacts Token Iter Lexer Parser SanitizeFacts LexerFacts
  LexMono Master Html HtmlFacts LinkFacts.
Open Scope list_scope.

(** ** Decimal numbers consist of digits *)
Lemma dec_digit n c : In c (dec n) -> is_digit c = true.
Proof.
  unfold dec. generalize (Nat.to_uint n). intros d.
  assert (H : forall d, In c (lit (DecimalString.NilEmpty.string_of_uint d)) -> is_digit c = true).
  { clear d. induction d; cbn [DecimalString.NilEmpty.string_of_uint lit In]; [easy|..];
      (intros [<-|I]; [reflexivity | auto]). }
  destruct d; cbn [DecimalString.NilZero.string_of_uint]; try apply H.
  cbn. intros [<-|[]]. reflexivity.
Qed.
Lemma not_digit c n : is_digit c = false -> ~ In c (dec n).
Proof. intros H I. apply dec_digit in I. congruence. Qed.

Lemma sanitize_clean s : clean_value (sanitize s).
Proof. split; intros I; apply sanitize_no_special in I; discriminate. Qed.
Lemma sanitize_no_lt s : ~ In c_lt (sanitize s).
Proof. apply sanitize_clean. Qed.

Section Safety.
Variable bad : str -> str -> bool.
Hypothesis bad_untab : forall k v, bad k v = false -> bad k (untab v) = false.
(** Only [href], [src] and [id] values may be bad, and not those the renderer makes. *)
Hypothesis bad_other : forall k v, ends_with (lit " href=") k = false -> ends_with (lit " src=") k = false ->
  ends_with (lit " id=") k = false -> bad k v = false.
Hypothesis bad_note : forall k, ends_with (lit " id=") k = true -> bad k (lit "fn:1") = false.
Hypothesis bad_noteref : forall k v, ends_with (lit " id=") k = true -> bad k (lit "fnref:" ++ v) = false.
Hypothesis bad_hash : forall k v, ends_with (lit " href=") k = true -> bad k (c_hash :: v) = false.
Hypothesis bad_empty : forall k, ends_with (lit " src=") k = true -> bad k (lit "data:,") = false.
Variable OK : str -> Prop.
Hypothesis X : texts OK.
Hypothesis raw : forall s, OK s -> no_raw s.
Hypothesis links : forall t u h, link_at OK [] t u h ->
  clean_value (url_content u) /\ clean_value (fmt_url u) /\ forall x, h = Some x -> ~ In c_lt x.
Hypothesis autos : forall u, auto_at OK u -> url_scheme u <> None ->
  clean_value (fmt_url u) /\ ~ In c_lt (fmt_unsafe u).
Hypothesis good : forall k t u h, link_at OK [] t u h -> ends_with (lit " href=") k = true -> bad k (fmt_url u) = false.
Hypothesis good_auto : forall k u, auto_at OK u -> ends_with (lit " href=") k = true -> bad k (fmt_url u) = false.
Hypothesis images : forall k t u h, link_at OK [c_bang] t u h -> ends_with (lit " src=") k = true ->
  bad k (url_content u) = false.

Local Notation run := (run bad).
Definition P (h : str) : Prop := run Data h = Data.

Lemma P_app a b : P a -> P b -> P (a ++ b).
Proof. unfold P. intros A B. now rewrite run_app, A. Qed.
Lemma P_text s : ~ In c_lt s -> P s.
Proof. apply run_data. Qed.
Lemma P_san s : P (sanitize s).
Proof. apply P_text, sanitize_no_lt. Qed.

(** A tag up to an open attribute value, the value, and what closes it. *)
Lemma seg q a k v l rest :
  run q a = InVar k [] -> clean_value v -> bad k v = false ->
  run q (a ++ v ++ (c_quot :: l) ++ rest) = run (InTag (k ++ [c_quot; c_quot])) (l ++ rest).
Proof.
  intros A V B. rewrite run_app, A, run_app, run_var by exact V. cbn [app]. rewrite run_cons. cbn [step].
  change (ceq c_quot c_lt) with false. change (ceq c_quot c_quot) with true. cbn iota.
  rewrite B. reflexivity.
Qed.
Lemma seg_text q a s rest : run q a = Data -> ~ In c_lt s -> run q (a ++ s ++ rest) = run Data rest.
Proof. intros A N. rewrite run_app, A, run_app, (run_data bad s N). reflexivity. Qed.

Lemma link_bang t u h : link_at OK [c_bang] t u h -> link_at OK [] t u h.
Proof.
  intros (src & c & e & V & N1 & N2 & O). exists src, c, e. split; [auto|]. split; [auto|]. split; [auto|].
  eapply x_infix; [exact X| |exact O]. exists [c_bang], []. now rewrite app_nil_r.
Qed.

Lemma hash_clean a s : clean_value a -> clean_value (a ++ sanitize s).
Proof.
  intros [A B]. destruct (sanitize_clean s) as [C D].
  split; rewrite in_app_iff; tauto.
Qed.

Lemma P_footnote_ref s n : P (footnote_ref s n).
Proof.
  unfold P, footnote_ref.
  assert (C1 : clean_value (lit "fnref:" ++ sanitize s))
    by (apply hash_clean; split; vm_compute; intuition discriminate).
  assert (C2 : clean_value (lit "#fn:" ++ sanitize s))
    by (apply hash_clean; split; vm_compute; intuition discriminate).
  transitivity (run Data (lit "<sup id=""" ++ (lit "fnref:" ++ sanitize s)
    ++ (c_quot :: lit " role=""doc-noteref""><a href=""") ++ (lit "#fn:" ++ sanitize s)
    ++ (c_quot :: lit " class=""footnote"" rel=""footnote"">") ++ dec n ++ lit "</a></sup>")).
  { now rewrite <- !app_assoc. }
  erewrite seg; [| vm_compute; reflexivity | exact C1 | now apply bad_noteref].
  erewrite seg; [| vm_compute; reflexivity | exact C2 | now apply bad_hash].
  erewrite seg_text; [ | vm_compute; reflexivity | apply not_digit; reflexivity].
  vm_compute. reflexivity.
Qed.

Lemma P_footnote_pieces ps : (forall p, In p ps -> ~ In c_lt p) -> forall n, P (footnote_pieces n ps).
Proof.
  induction ps as [|p ps IH]; intros H n; [reflexivity|]. cbn [footnote_pieces].
  assert (IHn : forall n, P (footnote_pieces n ps)) by (apply IH; intros q I; apply H; now right).
  destruct (ends_with _ _); apply P_app; auto.
  - apply P_footnote_ref.
  - apply P_text. apply H. now left.
Qed.

Lemma drop_blank_tail_infix t : infix (drop_blank_tail t) t.
Proof.
  unfold drop_blank_tail. destruct (rfind_split_at _ _) as [[a b]|]; [|apply infix_refl].
  destruct (forallb _ _); [apply infix_trim_end_matches | apply infix_refl].
Qed.
Lemma P_plaintext s : OK s -> P (plaintext_html s).
Proof.
  intros O. unfold plaintext_html.
  assert (O' : OK (drop_blank_tail s)) by (eapply x_infix; [exact X | apply drop_blank_tail_infix | exact O]).
  destruct (contains [c_lbrk; c_caret] _ && _) eqn:E.
  - apply andb_true_iff in E as [E _]. apply contains_iff in E. destruct (raw _ O') as [R|R].
    + apply P_footnote_pieces. intros p I J. apply R. eapply infix_In; [|exact J].
      eapply split_infix; exact I.
    + now exfalso.
  - apply P_san.
Qed.

Lemma P_ref a b : P (ref_html (a, b)).
Proof.
  unfold P, ref_html. cbn [fst snd].
  assert (C : clean_value (lit "#fnref:" ++ sanitize a))
    by (apply hash_clean; split; vm_compute; intuition discriminate).
  transitivity (run Data (([c_tab; c_tab] ++ lit "<li id=""") ++ lit "fn:1" ++ (c_quot :: lit " role=""doc-endnote"">"
    ++ [c_tab; c_tab; c_tab] ++ lit "<p>") ++ sanitize b ++ lit "<a href=""" ++ (lit "#fnref:" ++ sanitize a)
    ++ (c_quot :: lit " class=""reversefootnote"" role=""doc-backlink"">" ++ [8617%N]
    ++ lit "</a></p>" ++ [c_tab; c_tab] ++ lit "</li>") ++ [])).
  { rewrite <- !app_assoc. cbn [app]. now rewrite app_nil_r. }
  erewrite seg; [| vm_compute; reflexivity | split; vm_compute; intuition discriminate | now apply bad_note].
  erewrite seg_text; [ | vm_compute; reflexivity | apply sanitize_no_lt].
  erewrite seg; [| vm_compute; reflexivity | exact C | now apply bad_hash].
  vm_compute. reflexivity.
Qed.

Lemma P_trim h : P h -> P (trim h).
Proof.
  intros H. unfold trim, trim_end, trim_start_by.
  assert (W : forall s, forallb is_whitespace s = true -> ~ In c_lt s /\ ~ In c_gt s).
  { intros s F. split; intros I; apply (proj1 (forallb_forall _ _) F) in I; discriminate. }
  assert (H1 : P (drop_while is_whitespace h)).
  { unfold P in *. rewrite <- (take_drop is_whitespace h), run_app in H.
    rewrite run_data in H; [exact H|]. apply W, take_while_forall. }
  revert H1. generalize (drop_while is_whitespace h). clear h H. intros h H.
  destruct (trim_end_by_spec is_whitespace h) as (w & E & F). unfold P in *. rewrite E, run_app in H.
  apply run_data_before in H; [exact H|]. apply W, F.
Qed.
Lemma P_heading_text t : heading_text P t -> P t.
Proof.
  intros [->|(h & H & ->)]; [reflexivity|]. unfold heading_unwrap. apply P_trim.
  destruct (strip_prefix _ h) as [r|] eqn:E1; [|reflexivity]. cbn [or_empty].
  apply strip_prefix_iff in E1 as ->. unfold P in H. rewrite run_app in H.
  change (run Data (lit "<p>")) with Data in H.
  destruct (strip_suffix _ r) as [x|] eqn:E2; [|reflexivity]. cbn [or_empty].
  apply strip_suffix_iff in E2 as ->. rewrite run_app in H.
  exact (run_lt bad _ _ H).
Qed.
Lemma P_header n t : 1 <= n <= 6 -> P t -> P (header_html n t None).
Proof.
  intros N H. unfold header_html.
  assert (H1 : P (lit "<h" ++ dec n ++ lit ">") /\ P (lit "</h" ++ dec n ++ lit ">" ++ [c_nl])).
  { destruct n as [|[|[|[|[|[|[|n]]]]]]]; try lia; split; vm_compute; reflexivity. }
  destruct H1 as [A B]. change (lit "<h" ++ dec n ++ lit ">" ++ t ++ lit "</h" ++ dec n ++ lit ">" ++ [c_nl])
    with (lit "<h" ++ dec n ++ (lit ">" ++ (t ++ (lit "</h" ++ dec n ++ lit ">" ++ [c_nl])))).
  rewrite (app_assoc (dec n)), (app_assoc (lit "<h")). apply P_app; [exact A|]. now apply P_app.
Qed.

Lemma P_image u t h : link_at OK [c_bang] t u h -> P (image_html (url_content u) (Some t)).
Proof.
  intros F. destruct (links t u h (link_bang _ _ _ F)) as [C _]. unfold image_html, P.
  destruct (is_empty _).
  - transitivity (run Data (lit "<p><img src=""" ++ lit "data:," ++ (c_quot :: lit " alt=""") ++ sanitize t
      ++ (c_quot :: lit "></p>") ++ [])); [reflexivity|].
    erewrite seg; [| vm_compute; reflexivity | split; vm_compute; intuition discriminate | now apply bad_empty].
    erewrite seg; [| vm_compute; reflexivity | apply sanitize_clean | now apply bad_other].
    vm_compute. reflexivity.
  - transitivity (run Data (lit "<p><img src=""" ++ url_content u ++ (c_quot :: lit " alt=""") ++ sanitize t
      ++ (c_quot :: lit " referrerpolicy=""no-referrer""></p>") ++ [])); [reflexivity|].
    erewrite seg; [| vm_compute; reflexivity | exact C | now apply (images _ t u h)].
    erewrite seg; [| vm_compute; reflexivity | apply sanitize_clean | now apply bad_other].
    vm_compute. reflexivity.
Qed.

Lemma P_link u t h : link_at OK [] t u h -> P (link_html u (Some t) h).
Proof.
  intros F. destruct (links t u h F) as (_ & C & L0). unfold link_html, P.
  destruct h as [h|].
  - pose proof (L0 h eq_refl) as L. destruct C as [_ C].
    repeat (apply P_app; [apply P_text; first [exact C | exact L | apply sanitize_no_lt] || (vm_compute; reflexivity)|]).
    all: try (vm_compute; reflexivity).
    apply P_app; [vm_compute; reflexivity|].
    repeat (apply P_app; [apply P_text; first [exact C | exact L | apply sanitize_no_lt | vm_compute; intuition discriminate]|]).
    vm_compute; reflexivity.
  - transitivity (run Data (lit "<a href=""" ++ fmt_url u ++ (c_quot :: lit ">") ++ sanitize t ++ lit "</a>")); [reflexivity|].
    erewrite seg; [| vm_compute; reflexivity | exact C | now apply (good _ t u None)].
    erewrite seg_text; [ | vm_compute; reflexivity | apply sanitize_no_lt].
    vm_compute. reflexivity.
Qed.

Lemma P_auto u : auto_at OK u -> url_scheme u <> None -> P (link_html u None None).
Proof.
  intros F N. destruct (autos u F N) as [C L]. unfold link_html, P.
  transitivity (run Data (lit "<a href=""" ++ fmt_url u ++ (c_quot :: lit ">") ++ fmt_unsafe u ++ lit "</a>")); [reflexivity|].
  erewrite seg; [| vm_compute; reflexivity | exact C | now apply good_auto].
  erewrite seg_text; [ | vm_compute; reflexivity | exact L].
  vm_compute. reflexivity.
Qed.

Lemma P_wrap a s b : P a -> P b -> P s -> P (a ++ s ++ b).
Proof. intros. repeat apply P_app; auto. Qed.

Theorem safe_templates : templates OK P.
Proof.
  constructor.
  - repeat constructor; vm_compute; reflexivity.
  - exact P_app.
  - intros s _. apply P_san.
  - exact P_plaintext.
  - intros n t N H. apply P_header; [auto | now apply P_heading_text].
  - intros u t _ _ [h F] _. now apply (P_image u t h).
  - intros u t h _ F _ _. now apply P_link.
  - intros u _ F N. now apply P_auto.
  - intros s h _ H. unfold detail_html.
    change (?a ++ ?b ++ ?c ++ sanitize s ++ ?d) with (a ++ b ++ c ++ sanitize s ++ d).
    repeat (apply P_app; [first [apply P_san | exact H | vm_compute; reflexivity]|]).
    vm_compute; reflexivity.
  - intros c t _. unfold task_html. destruct c; (apply P_wrap; [vm_compute; reflexivity.. | apply P_san]).
  - intros a t _. unfold th_html. cbn [fst snd].
    change ([c_tab; c_tab] ++ lit "<th style=""text-align: " ++ fmt_alignment a ++ lit """>" ++ sanitize t ++ lit "</th>")
      with ([c_tab; c_tab] ++ (lit "<th style=""text-align: " ++ fmt_alignment a ++ lit """>" ++ (sanitize t ++ lit "</th>"))).
    rewrite (app_assoc (fmt_alignment a)), (app_assoc (lit "<th style=""text-align: ")).
    apply P_app; [vm_compute; reflexivity|]. apply P_wrap; [destruct a; vm_compute; reflexivity | vm_compute; reflexivity | apply P_san].
  - intros a h H. unfold td_html.
    rewrite (app_assoc (fmt_alignment a)), (app_assoc (lit "<td style=""text-align: ")).
    apply P_app; [vm_compute; reflexivity|]. apply P_wrap; [destruct a; vm_compute; reflexivity | vm_compute; reflexivity | exact H].
  - intros h H. unfold P. now apply (run_pad bad (length h)).
  - intros h H. exact (run_untab bad bad_untab h Data H).
  - intros a b _ _ _. apply P_ref.
Qed.

Theorem safe_render h s : OK s -> renders s h -> safe_html bad h.
Proof. intros O R. apply run_safe. exact (renders_ok OK P X safe_templates s h O R). Qed.
End Safety.
