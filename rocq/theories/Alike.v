(** * Alike: letters beyond ASCII are all alike to the renderer.

    The code of /repo compares chars of the document only with ASCII chars and
    asks of the others whether they are white space.  So exchanging letters
    beyond ASCII for others commutes with lexing, parsing and rendering. *)
From Coq Require Import Ascii String.
From Verif Require Import Strings StringsFacts Token Iter Lexer Parser LexerFacts Safety LinkFacts.
Open Scope list_scope.

(** A char beyond ASCII that is not white space. *)
Definition foreign (c : char) : bool := N.leb 128 c && negb (is_whitespace c).
Definition native (s : str) : bool := forallb (fun c => negb (foreign c)) s.

Definition rmap {A B} (f : A -> B) (m : res A) : res B :=
  match m with Ret a => Ret (f a) | Panic => Panic | Hang => Hang end.

Section Alike.
Variable pi : char -> char.
Hypothesis pi_native : forall c, foreign c = false -> pi c = c.
Hypothesis pi_foreign : forall c, foreign c = true -> foreign (pi c) = true.

Notation m := (map pi).

Lemma ceq_pi c x : foreign c = false -> ceq (pi x) c = ceq x c.
Proof.
  intros F. destruct (foreign x) eqn:E.
  - pose proof (pi_foreign x E) as G.
    destruct (ceq x c) eqn:P; [apply N.eqb_eq in P; congruence|].
    destruct (ceq (pi x) c) eqn:Q; [apply N.eqb_eq in Q; congruence|reflexivity].
  - now rewrite pi_native.
Qed.
Lemma ceq_pi' c x : foreign c = false -> ceq c (pi x) = ceq c x.
Proof. intros F. unfold ceq. rewrite !(N.eqb_sym c). now apply ceq_pi. Qed.

(** Questions about a char that have the same answer for its image. *)
Definition blind (f : char -> bool) : Prop := forall c, f (pi c) = f c.
Lemma blind_ceq c : foreign c = false -> blind (ceq c).
Proof. intros F x. now apply ceq_pi'. Qed.
Lemma blind_ceq' c : foreign c = false -> blind (fun x => ceq x c).
Proof. intros F x. now apply ceq_pi. Qed.
Lemma blind_native f : (forall c, foreign c = true -> f c = false) -> blind f.
Proof.
  intros H c. destruct (foreign c) eqn:E; [|now rewrite pi_native].
  rewrite !H; auto.
Qed.
Lemma blind_ws : blind is_whitespace.
Proof.
  apply blind_native. intros c F. apply andb_true_iff in F as [_ F]. now apply negb_true_iff.
Qed.
Lemma blind_digit : blind is_digit.
Proof.
  apply blind_native. intros c F. apply andb_true_iff in F as [F _]. apply N.leb_le in F.
  unfold is_digit. apply andb_false_iff. right. apply N.leb_gt. lia.
Qed.
Lemma blind_ascii : blind (fun c => N.ltb c 128).
Proof.
  apply blind_native. intros c F. apply andb_true_iff in F as [F _]. apply N.leb_le in F.
  apply N.ltb_ge. exact F.
Qed.
Lemma blind_negb f : blind f -> blind (fun c => negb (f c)).
Proof. intros H c. now rewrite H. Qed.
Lemma blind_and f g : blind f -> blind g -> blind (fun c => f c && g c).
Proof. intros H G c. now rewrite H, G. Qed.
Lemma blind_or f g : blind f -> blind g -> blind (fun c => f c || g c).
Proof. intros H G c. now rewrite H, G. Qed.

Lemma m_native s : native s = true -> m s = s.
Proof.
  induction s as [|c s IH]; cbn; [easy|]. intros [H1 H2]%andb_true_iff.
  apply negb_true_iff in H1. now rewrite pi_native, IH.
Qed.

(** ** The std functions *)
Lemma existsb_m f s : blind f -> existsb f (m s) = existsb f s.
Proof. intros H. induction s as [|c s IH]; cbn; [easy|]. now rewrite H, IH. Qed.
Lemma forallb_m f s : blind f -> forallb f (m s) = forallb f s.
Proof. intros H. induction s as [|c s IH]; cbn; [easy|]. now rewrite H, IH. Qed.
Lemma is_empty_m s : is_empty (m s) = is_empty s.
Proof. now destruct s. Qed.
Lemma native_rev p : native p = true -> native (rev p) = true.
Proof.
  unfold native. rewrite !forallb_forall. intros H x X. apply H. now apply in_rev.
Qed.
Lemma starts_m p s : native p = true -> starts_with p (m s) = starts_with p s.
Proof.
  revert s; induction p as [|x p IH]; intros [|y s]; cbn; try easy.
  intros [H1 H2]%andb_true_iff. apply negb_true_iff in H1. now rewrite ceq_pi', IH.
Qed.
Lemma ends_m p s : native p = true -> ends_with p (m s) = ends_with p s.
Proof. intros H. unfold ends_with. rewrite <- map_rev. apply starts_m. now apply native_rev. Qed.
Lemma contains_m p s : native p = true -> contains p (m s) = contains p s.
Proof.
  intros H. induction s as [|c s IH]; cbn [contains map].
  - reflexivity.
  - pose proof (starts_m p (c :: s) H) as E. cbn [map] in E. now rewrite E, IH.
Qed.
Lemma contains_char_m c s : foreign c = false -> contains_char c (m s) = contains_char c s.
Proof. intros H. apply existsb_m. now apply blind_ceq. Qed.
Lemma strip_prefix_m p s : native p = true -> strip_prefix p (m s) = option_map m (strip_prefix p s).
Proof.
  revert s; induction p as [|x p IH]; intros [|y s]; cbn; try easy.
  intros [H1 H2]%andb_true_iff. apply negb_true_iff in H1. rewrite ceq_pi' by exact H1.
  destruct (ceq x y); [now apply IH | reflexivity].
Qed.
Lemma strip_suffix_m p s : native p = true -> strip_suffix p (m s) = option_map m (strip_suffix p s).
Proof.
  intros H. unfold strip_suffix. rewrite <- map_rev, strip_prefix_m by now apply native_rev.
  destruct (strip_prefix (rev p) (rev s)); cbn; [now rewrite map_rev|reflexivity].
Qed.
Lemma or_empty_m o : or_empty (option_map m o) = m (or_empty o).
Proof. now destruct o. Qed.
Lemma take_m f s : blind f -> take_while f (m s) = m (take_while f s).
Proof. intros H. induction s as [|c s IH]; cbn; [easy|]. rewrite H, IH. now destruct (f c). Qed.
Lemma drop_m f s : blind f -> drop_while f (m s) = m (drop_while f s).
Proof. intros H. induction s as [|c s IH]; cbn; [easy|]. rewrite H, IH. now destruct (f c). Qed.
Lemma trim_start_by_m f s : blind f -> trim_start_by f (m s) = m (trim_start_by f s).
Proof. apply drop_m. Qed.
Lemma trim_end_by_m f s : blind f -> trim_end_by f (m s) = m (trim_end_by f s).
Proof. intros H. unfold trim_end_by. now rewrite <- map_rev, drop_m, map_rev. Qed.
Lemma trim_end_m s : trim_end (m s) = m (trim_end s).
Proof. apply trim_end_by_m, blind_ws. Qed.
Lemma trim_m s : trim (m s) = m (trim s).
Proof. unfold trim. now rewrite trim_start_by_m, trim_end_m by apply blind_ws. Qed.
Lemma drop_prefixes_m n p s : native p = true -> drop_prefixes n p (m s) = m (drop_prefixes n p s).
Proof.
  intros H. revert s; induction n as [|n IH]; intros s; cbn; [easy|].
  rewrite strip_prefix_m by exact H. destruct (strip_prefix p s); cbn; [apply IH|reflexivity].
Qed.
Lemma trim_end_matches_m p s : native p = true -> trim_end_matches p (m s) = m (trim_end_matches p s).
Proof.
  intros H. unfold trim_end_matches.
  now rewrite map_length, <- map_rev, drop_prefixes_m, map_rev by now apply native_rev.
Qed.
Definition mm (x : str * str) : str * str := (m (fst x), m (snd x)).
Lemma split_once_m c s : foreign c = false -> split_once c (m s) = option_map mm (split_once c s).
Proof.
  intros F. induction s as [|x s IH]; cbn; [easy|]. rewrite ceq_pi by exact F.
  destruct (ceq x c); [reflexivity|]. rewrite IH. now destruct (split_once c s) as [[]|].
Qed.
Lemma rsplit_once_m c s : foreign c = false -> rsplit_once c (m s) = option_map mm (rsplit_once c s).
Proof.
  intros F. unfold rsplit_once. rewrite <- map_rev, split_once_m by exact F.
  destruct (split_once c (rev s)) as [[]|]; cbn; [|reflexivity]. unfold mm; cbn. now rewrite !map_rev.
Qed.
Lemma split_go_m p k acc s : native p = true ->
  split_go p k (m acc) (m s) = map m (split_go p k acc s).
Proof.
  intros H. revert k acc; induction s as [|c s IH]; intros k acc; cbn [split_go map].
  - cbn. now rewrite map_rev.
  - destruct k as [|k]; [|apply IH].
    pose proof (starts_m p (c :: s) H) as E. cbn [map] in E. rewrite E.
    destruct (starts_with p (c :: s)).
    + cbn [map]. rewrite map_rev. f_equal. exact (IH (length p - 1) []).
    + exact (IH 0 (c :: acc)).
Qed.
Lemma split_m p s : native p = true -> split p (m s) = map m (split p s).
Proof. intros H. exact (split_go_m p 0 [] s H). Qed.
Lemma count_go_m p k s : native p = true -> count_go p k (m s) = count_go p k s.
Proof.
  intros H. revert k; induction s as [|c s IH]; intros k; cbn [count_go map]; [easy|].
  destruct k as [|k]; [|apply IH].
  pose proof (starts_m p (c :: s) H) as E. cbn [map] in E. rewrite E.
  destruct (starts_with p (c :: s)); now rewrite IH.
Qed.
Lemma count_m p s : native p = true -> count_matches p (m s) = count_matches p s.
Proof. apply count_go_m. Qed.
Lemma replace_go_m p r k s : native p = true -> native r = true ->
  replace_go p r k (m s) = m (replace_go p r k s).
Proof.
  intros H R. revert k; induction s as [|c s IH]; intros k; cbn [replace_go map]; [easy|].
  destruct k as [|k]; [|apply IH].
  pose proof (starts_m p (c :: s) H) as E. cbn [map] in E. rewrite E.
  destruct (starts_with p (c :: s)); rewrite IH; [|reflexivity].
  rewrite map_app. now rewrite (m_native r R).
Qed.
Lemma replace_m p r s : native p = true -> native r = true ->
  replace p r (m s) = m (replace p r s).
Proof. apply replace_go_m. Qed.
Lemma replace_char_m c r s : foreign c = false -> native r = true ->
  replace_char c r (m s) = m (replace_char c r s).
Proof.
  intros F R. unfold replace_char. induction s as [|x s IH]; cbn [flat_map map]; [easy|].
  rewrite map_app, IH, ceq_pi by exact F. f_equal.
  destruct (ceq x c); [now rewrite m_native | reflexivity].
Qed.
Lemma is_ascii_m s : is_ascii (m s) = is_ascii s.
Proof. apply forallb_m, blind_ascii. Qed.
Lemma is_ascii_native s : is_ascii s = true -> m s = s.
Proof.
  intros H. apply m_native. unfold is_ascii, native in *. rewrite forallb_forall in *.
  intros x X. specialize (H x X). apply N.ltb_lt in H. unfold foreign.
  replace (128 <=? x)%N with false; [reflexivity|]. symmetry. apply N.leb_gt. exact H.
Qed.
Lemma str_eqb_m p s : native p = true -> str_eqb (m s) p = str_eqb s p.
Proof.
  revert p; induction s as [|y s IH]; intros [|x p]; cbn; try easy.
  intros [H1 H2]%andb_true_iff. apply negb_true_iff in H1. now rewrite ceq_pi, IH.
Qed.
Lemma dec_m n : m (dec n) = dec n.
Proof.
  apply m_native. apply forallb_forall. intros c H. apply dec_digit in H.
  unfold is_digit in H. apply andb_true_iff in H as [_ H]. apply N.leb_le in H.
  unfold foreign. replace (128 <=? c)%N with false; [reflexivity|].
  symmetry. apply N.leb_gt. lia.
Qed.
Lemma nrep_m n s : native s = true -> m (nrep n s) = nrep n s.
Proof. intros H. induction n; cbn; [easy|]. now rewrite map_app, m_native, IHn. Qed.

(** ** The iterator *)
Lemma next_m r : next (m r) = m (next r).
Proof. now destruct r. Qed.
Lemma peek_is_m c r : foreign c = false -> peek_is c (m r) = peek_is c r.
Proof. intros F. destruct r; cbn; [easy|]. now apply ceq_pi. Qed.
Lemma next_if_eq_m c r : foreign c = false -> next_if_eq c (m r) = option_map m (next_if_eq c r).
Proof. intros F. destruct r as [|x r]; cbn; [easy|]. rewrite ceq_pi by exact F. now destruct (ceq x c). Qed.
Lemma skip_if_eq_m c r : foreign c = false -> skip_if_eq c (m r) = m (skip_if_eq c r).
Proof. intros F. unfold skip_if_eq. rewrite next_if_eq_m by exact F. now destruct (next_if_eq c r). Qed.
Lemma until_go_m tail acc r : native tail = true ->
  consume_until_tail_go tail (m acc) (m r) = mm (consume_until_tail_go tail acc r).
Proof.
  intros H. revert acc; induction r as [|c r IH]; intros acc; cbn [consume_until_tail_go map]; [easy|].
  rewrite ends_m by exact H. destruct (ends_with tail acc); [reflexivity|].
  rewrite <- IH, map_app. reflexivity.
Qed.
Lemma until_m tail r : native tail = true ->
  consume_until_tail_is tail (m r) = mm (consume_until_tail_is tail r).
Proof. apply (until_go_m tail []). Qed.
Lemma substring_m a b : substring_from (m a) (m b) = m (substring_from a b).
Proof. unfold substring_from. now rewrite !map_length, firstn_map. Qed.
Lemma split_line_m r : split_line (m r) = mm (split_line r).
Proof.
  unfold split_line. rewrite split_once_m by reflexivity.
  destruct (split_once c_nl r) as [[]|]; cbn; unfold mm; cbn; [|reflexivity].
  now rewrite map_app, (m_native [c_nl] eq_refl).
Qed.
Lemma peek_line_m r : peek_line_ahead (m r) = option_map m (peek_line_ahead r).
Proof.
  unfold peek_line_ahead. destruct r as [|c r]; [reflexivity|].
  pose proof (f_equal fst (split_line_m (c :: r))) as E. cbn [map] in E |- *.
  cbn [option_map]. now rewrite E.
Qed.

(** ** Tokens *)
Definition ms (s : scheme) : scheme :=
  match s with SHttp x => SHttp (m x) | SEmail x => SEmail (m x)
             | SIrc x => SIrc (m x) | SOther x => SOther (m x) end.
Definition mu (u : valid_url) : valid_url := mkUrl (m (url_content u)) (option_map ms (url_scheme u)).
Fixpoint mt (t : token) : token :=
  match t with
  | Plaintext t => Plaintext (m t)
  | Header l t lbl => Header l (m t) (option_map m lbl)
  | UnorderedListEntry toks => UnorderedListEntry (map mt toks)
  | OrderedListEntry t => OrderedListEntry (m t)
  | Italic t => Italic (m t)
  | Bold t => Bold (m t)
  | BoldItalic t => BoldItalic (m t)
  | LineBreak => LineBreak
  | Newline => Newline
  | HorizontalRule => HorizontalRule
  | Tab => Tab
  | DoubleTab => DoubleTab
  | Strikethrough t => Strikethrough (m t)
  | Code t => Code (m t)
  | CodeBlock t lang => CodeBlock (m t) (m lang)
  | BlockQuote l t => BlockQuote l (m t)
  | Image l t => Image (m l) (option_map m t)
  | Link l t ht => Link (mu l) (option_map m t) (option_map m ht)
  | Detail s toks => Detail (m s) (map mt toks)
  | Table hs rows =>
      Table (map (fun h => (fst h, m (snd h))) hs)
            (map (map (fun c => match c with (a, ts) => (a, map mt ts) end)) rows)
  | TaskListItem c t => TaskListItem c (m t)
  | Footnote i t => Footnote (m i) (m t)
  end.
Definition ml (l : lres) : lres :=
  match l with LOk t r => LOk (mt t) (m r) | LErr e r => LErr (m e) (m r) end.

Lemma validate_m s :
  validate_link (m s) = match validate_link s with inl u => inl (mu u) | inr e => inr (m e) end.
Proof.
  destruct (is_ascii s) eqn:A.
  - rewrite (is_ascii_native s A).
    assert (forall u, validate_link s = inl u -> mu u = u) as U.
    { intros u E. destruct u as [c sch]. unfold mu. cbn [url_content url_scheme]. f_equal.
      - apply is_ascii_native. unfold is_ascii in *. rewrite forallb_forall in *.
        intros x X. apply A. exact (content_in _ _ _ E X).
      - destruct sch as [sch|]; [|reflexivity]. cbn [option_map]. f_equal.
        assert (m (fmt_scheme sch) = fmt_scheme sch) as F.
        { apply is_ascii_native. unfold is_ascii in *. rewrite forallb_forall in *.
          intros x X. destruct (scheme_in _ _ _ _ E eq_refl X) as [Y|Y]; [now apply A|].
          assert (forallb (fun c => N.ltb c 128) (lit "mailto") = true) as M by reflexivity.
          rewrite forallb_forall in M. now apply M. }
        destruct sch; cbn in F |- *; now rewrite F. }
    destruct (validate_link s) as [u|e] eqn:E; [now rewrite U|].
    apply validate_link_err in E. subst e. now rewrite is_ascii_native.
  - unfold validate_link at 1. rewrite is_ascii_m, A. cbn [negb orb].
    unfold validate_link. now rewrite A.
Qed.

(** ** The lexer *)
Lemma if_map {A B} (f : A -> B) (b : bool) x y :
  (if b then option_map f x else option_map f y) = option_map f (if b then x else y).
Proof. now destruct b. Qed.
Lemma if_empty {A} (x : str) (a b : A) :
  match x with [] => a | _ :: _ => b end = if is_empty x then a else b.
Proof. now destruct x. Qed.
Ltac bl := first [ apply blind_ws
  | intro; unfold not_nl, is_sp_tab, is_star_under;
    rewrite ?ceq_pi, ?ceq_pi' by reflexivity; reflexivity ].
Ltac al := repeat first
  [ rewrite map_length | rewrite next_m | rewrite substring_m | rewrite split_line_m
  | rewrite peek_line_m | rewrite trim_m | rewrite trim_end_m | rewrite or_empty_m
  | rewrite is_empty_m | rewrite skipn_map | rewrite validate_m
  | rewrite peek_is_m by reflexivity | rewrite next_if_eq_m by reflexivity
  | rewrite skip_if_eq_m by reflexivity | rewrite until_m by reflexivity
  | rewrite starts_m by reflexivity | rewrite ends_m by reflexivity
  | rewrite contains_m by reflexivity | rewrite contains_char_m by reflexivity
  | rewrite strip_prefix_m by reflexivity | rewrite strip_suffix_m by reflexivity
  | rewrite split_once_m by reflexivity | rewrite rsplit_once_m by reflexivity
  | rewrite split_m by reflexivity | rewrite count_m by reflexivity
  | rewrite replace_m by reflexivity | rewrite replace_char_m by reflexivity
  | rewrite str_eqb_m by reflexivity
  | rewrite take_m by bl | rewrite drop_m by bl | rewrite trim_start_by_m by bl
  | rewrite trim_end_by_m by bl | rewrite forallb_m by bl | rewrite existsb_m by bl ].
Ltac cw := unfold consume_while; cbv beta iota zeta.
Ltac fin := cbn [rmap ml mt map option_map]; al; try reflexivity.

Variable LEX : str -> list char -> res (list token).
Variable REN : str -> list char -> res str.
Variable L : nat.
Hypothesis LEX_m : forall s ig, LEX (m s) ig = rmap (map mt) (LEX s ig).
Hypothesis REN_m : forall s ig, REN (m s) ig = rmap m (REN s ig).

Lemma heading_id_m line : heading_id (m line) = option_map m (heading_id line).
Proof.
  unfold heading_id. al. destruct (_ && _); [|reflexivity].
  destruct (split_once c_lbrace line) as [[a b]|] eqn:E; cbn [option_map mm fst].
  - apply split_once_some in E as [-> _]. rewrite map_app, !strip_prefix_app. cbn [map].
    rewrite (pi_native c_lbrace eq_refl). change (c_lbrace :: m b) with ([c_lbrace] ++ m b).
    rewrite <- (m_native [c_lbrace] eq_refl) at 1. rewrite <- map_app. al.
    destruct (strip_prefix _ _); cbn [option_map]; [|reflexivity]. now al.
  - cbn [strip_prefix]. al. destruct (strip_prefix _ _); cbn [option_map]; [|reflexivity]. now al.
Qed.
Lemma heading_trailing_m l : heading_trailing (m l) = m (heading_trailing l).
Proof.
  unfold heading_trailing. al. destruct (rsplit_once _ _) as [[a b]|]; cbn; [|reflexivity].
  al. now destruct (forallb _ b).
Qed.
Lemma heading_unwrap_m h : heading_unwrap (m h) = m (heading_unwrap h).
Proof. unfold heading_unwrap. now al. Qed.
Lemma heading_sep_m r : heading_sep (m r) = option_map m (heading_sep r).
Proof.
  unfold heading_sep. al. destruct (next_if_eq c_sp r); [reflexivity|]. cbn [option_map]. al.
  destruct (next_if_eq c_tab r); [reflexivity|]. cbn [option_map]. al. now destruct (peek_is _ _).
Qed.
Lemma lex_heading_m r : lex_heading REN (m r) = rmap ml (lex_heading REN r).
Proof.
  unfold lex_heading. cw. al. destruct (_ <? _); [fin|].
  rewrite heading_sep_m. destruct (heading_sep _) as [r2|]; cbn [option_map]; [|fin]. al.
  rewrite heading_id_m. destruct (heading_id _) as [line|]; cbn [option_map]; [|fin]. al.
  destruct (forallb _ line); [fin|].
  rewrite heading_trailing_m. al. rewrite REN_m. destruct (REN _ _); cbn [rmap bind]; [|fin..].
  fin. now rewrite heading_unwrap_m.
Qed.
Lemma lex_newlines_m r : lex_newlines (m r) = ml (lex_newlines r).
Proof. unfold lex_newlines. cw. al. destruct (_ <=? _); fin. Qed.

Lemma tabs_go_m n last r :
  lex_tabs_spaces_go n (option_map mt last) (m r) = option_map ml (lex_tabs_spaces_go n last r).
Proof.
  revert r; induction n as [|n IH]; intros r; cbn [lex_tabs_spaces_go]; [reflexivity|].
  cw. al. destruct (_ && _ && negb _); [fin|]. destruct (_ && _); [fin|].
  destruct (consume_until_tail_is _ _) as [line r2]. unfold mm; cbn [fst snd]. al.
  replace (last_is_plaintext (option_map mt last)) with (last_is_plaintext last) by now destruct last as [[]|].
  replace (last_is_newline (option_map mt last)) with (last_is_newline last) by now destruct last as [[]|].
  destruct (_ && _); [fin|]. destruct (_ || _); [fin|].
  destruct (str_eqb _ _).
  { fin. now rewrite (pi_native c_tab eq_refl). }
  destruct (_ || _); [|fin]. rewrite IH.
  destruct (lex_tabs_spaces_go n last r2) as [[[] r3|e r3]|]; fin.
Qed.
Lemma lex_tabs_spaces_m last r :
  lex_tabs_spaces (option_map mt last) (m r) = rmap ml (lex_tabs_spaces last r).
Proof.
  unfold lex_tabs_spaces. rewrite map_length, tabs_go_m. now destruct (lex_tabs_spaces_go _ _ _).
Qed.
Lemma lex_numbers_m r : lex_numbers (m r) = rmap ml (lex_numbers r).
Proof.
  destruct r as [|c r]; [reflexivity|]. unfold lex_numbers. cbn [map].
  change (pi c :: m r) with (m (c :: r)). al. destruct (next_if_eq c_dot r) as [r2|]; cbn [option_map]; [|fin].
  al. destruct (next_if_eq c_sp r2) as [r3|]; cbn [option_map]; [|fin]. cw. fin.
Qed.
Lemma lex_escaped_m r : lex_escaped_character (m r) = ml (lex_escaped_character r).
Proof.
  unfold lex_escaped_character. rewrite next_m. destruct (next r) as [|c r2].
  { cbn [map ml]. now rewrite (m_native (lit "EOF") eq_refl). }
  cbn [map]. rewrite ceq_pi by reflexivity. change (pi c :: m r2) with (m (c :: r2)).
  destruct (ceq c c_hash); [|reflexivity]. cw. al. reflexivity.
Qed.
Lemma lex_strong_m n mk r r1 : (forall s, mt (mk s) = mk (m s)) ->
  lex_strong n mk (m r) (m r1) = ml (lex_strong n mk r r1).
Proof.
  intros K. unfold lex_strong. cw. al. destruct (_ =? _); fin. now rewrite K.
Qed.
Lemma lex_aster_m r : lex_asterisk_underscore (m r) = ml (lex_asterisk_underscore r).
Proof.
  unfold lex_asterisk_underscore. cw. al.
  set (a := take_while _ r). set (r1 := drop_while _ r).
  destruct (length a =? 1); [destruct (next_if_eq c_sp r1) as [r2|]; cbn [option_map]; [fin|]|].
  all: destruct (_ && _); [fin|]; destruct (length a) as [|[|[|[|k]]]];
    [|fin|now apply lex_strong_m|now apply lex_strong_m|]; destruct (_ || _); fin.
Qed.
Lemma lex_quotes_m r : lex_blockquotes (m r) = ml (lex_blockquotes r).
Proof. unfold lex_blockquotes. cw. al. destruct (_ || _); fin. Qed.
Lemma paragraphs_m n r : list_paragraphs n (m r) =
  option_map (fun x => (map mt (fst x), m (snd x))) (list_paragraphs n r).
Proof.
  revert r; induction n as [|n IH]; intros r; cbn [list_paragraphs]; [reflexivity|].
  unfold ahead_is. al. destruct (starts_with _ r); [|reflexivity]. cw. al. rewrite IH.
  destruct (list_paragraphs n _) as [[toks r2]|]; fin.
Qed.
Lemma item_m line toks r :
  list_item_token LEX (m line) (map mt toks) (m r) = rmap ml (list_item_token LEX line toks r).
Proof.
  unfold list_item_token. al. destruct (starts_with _ line); [fin|].
  destruct (_ || _); [fin|]. destruct (peek_line_ahead r) as [l|]; cbn [option_map]; [|fin].
  al. unfold consume_line_ahead. al. destruct (split_line r) as [sub r5]; unfold mm; cbn [fst snd]. al.
  destruct (starts_with _ l); [|destruct (starts_with _ l)]; try rewrite LEX_m.
  1,2: destruct (LEX _ _); cbn [rmap bind]; fin; now rewrite map_app.
  fin.
Qed.
Lemma lex_plus_minus_m r : lex_plus_minus LEX (m r) = rmap ml (lex_plus_minus LEX r).
Proof.
  unfold lex_plus_minus. cw. al. destruct (length (take_while _ r)) as [|[|[|k]]]; try solve [fin].
  - cbn [rmap ml]. now rewrite (m_native (lit "string length error") eq_refl).
  - rewrite paragraphs_m. destruct (list_paragraphs _ _) as [[more r3]|]; cbn [option_map fst snd]; [|fin].
    al. exact (item_m _ (Plaintext _ :: more) _).
Qed.
Lemma lex_tilde_m r : lex_tilde (m r) = ml (lex_tilde r).
Proof.
  unfold lex_tilde. cw. al. destruct (length (take_while _ r)) as [|[|[|k]]]; try solve [fin].
  destruct (_ =? _); fin.
Qed.
Lemma native_ticks n : native (crep n c_tick) = true.
Proof. unfold native, crep. induction n; [reflexivity|]. exact IHn. Qed.
Lemma lex_backticks_m r : lex_backticks (m r) = ml (lex_backticks r).
Proof.
  unfold lex_backticks. cw. al. destruct (_ =? _).
  - destruct (next_if_eq c_nl _) as [r2|]; cbn [option_map]; al; destruct (_ =? _); fin.
  - set (tl := crep _ c_tick). assert (native tl = true) as T by apply native_ticks.
    rewrite until_m by exact T. destruct (consume_until_tail_is tl _) as [s r2]; unfold mm; cbn [fst snd].
    rewrite ends_m by exact T. destruct (negb _); [fin|].
    rewrite trim_end_matches_m by exact T. al. destruct (_ && _); fin.
Qed.
Definition msum (x : cursor + cursor) : cursor + cursor :=
  match x with inl r => inl (m r) | inr r => inr (m r) end.
Lemma footnote_lines_m n r : footnote_lines n (m r) = option_map msum (footnote_lines n r).
Proof.
  revert r; induction n as [|n IH]; intros r; cbn [footnote_lines]; [reflexivity|].
  cw. al. destruct (_ && _); [fin|].
  destruct (next_if_eq c_tab _) as [r2|]; cbn [option_map]; [apply IH|]. al.
  destruct (_ || _); [apply IH | fin].
Qed.
Lemma link_dest_m title r r0 :
  lex_link_dest (m title) (m r) (m r0) = ml (lex_link_dest title r r0).
Proof.
  unfold lex_link_dest. cw. rewrite !if_empty. al. destruct (is_empty _); [fin|].
  destruct (next_if_eq c_rpar _) as [r2|]; cbn [option_map]; al.
  - destruct (validate_link _); fin.
  - unfold skip_while. al. destruct (validate_link _); fin.
Qed.
Lemma lex_footnote_m title r r0 :
  lex_footnote (m title) (m r) (m r0) = rmap ml (lex_footnote title r r0).
Proof.
  unfold lex_footnote. al. rewrite footnote_lines_m.
  destruct (footnote_lines _ r0) as [[r1|r1]|]; cbn [option_map msum]; [|fin|fin].
  al. destruct (existsb _ _); fin.
Qed.
Lemma lex_links_m r : lex_links (m r) = rmap ml (lex_links r).
Proof.
  unfold lex_links. al. destruct (next_if_eq c_lbrk r) as [r1|]; cbn [option_map]; [|fin].
  cw. al. destruct (next_if_eq c_rbrk _) as [r3|]; cbn [option_map]; [|fin]. al.
  destruct (starts_with _ _); [destruct (next_if_eq c_colon r3) as [r4|]; cbn [option_map];
    [apply lex_footnote_m|]|].
  all: destruct (next_if_eq c_lpar r3) as [r4|]; cbn [option_map]; [|fin];
    cbn [rmap]; now rewrite link_dest_m.
Qed.
Lemma lex_images_m r : lex_images (m r) = rmap ml (lex_images r).
Proof.
  unfold lex_images. al. destruct (next_if_eq c_bang r) as [r1|]; cbn [option_map]; [|fin].
  rewrite lex_links_m. destruct (lex_links r1) as [[[] r2|e r2]| |]; cbn [rmap bind ml mt]; al;
    try reflexivity; now rewrite (m_native (lit "Non link token returned from lex_links") eq_refl).
Qed.
Lemma details_loop_m n start r text :
  details_loop n (m start) (m r) (m text) = option_map mm (details_loop n start r text).
Proof.
  revert r text; induction n as [|n IH]; intros r text; cbn [details_loop]; unfold opens, closes; al;
    destruct (_ =? _); try reflexivity.
  destruct (consume_until_tail_is _ r) as [x r1]; unfold mm at 1; cbn [fst snd]. al. apply IH.
Qed.
Lemma parse_details_m r : parse_details LEX L (m r) = rmap ml (parse_details LEX L r).
Proof.
  unfold parse_details. cw. al. destruct (_ || _); [fin|].
  destruct (strip_prefix _ _) as [s1|]; cbn [option_map]; [|fin]. al.
  destruct (consume_until_tail_is _ _) as [t0 r3]; unfold mm at 1; cbn [fst snd]. al.
  rewrite details_loop_m.
  change (Some (m t0, m r3)) with (option_map mm (Some (t0, r3))). rewrite if_map.
  destruct (if contains _ _ then _ else _) as [[text r4]|]; cbn [option_map mm fst snd]; [|fin].
  al. rewrite LEX_m. destruct (LEX _ _); cbn [rmap bind]; fin.
Qed.
Lemma lex_side_carrot_m r : lex_side_carrot LEX L (m r) = rmap ml (lex_side_carrot LEX L r).
Proof.
  unfold lex_side_carrot. al. destruct (next_if_eq c_lt r) as [r1|]; cbn [option_map]; [|fin].
  cw. al. destruct (next_if_eq c_gt _) as [r3|]; cbn [option_map]; [|fin]. rewrite !if_empty. al.
  destruct (str_eqb _ _).
  { destruct (next_if_eq c_nl _) as [r5|]; cbn [option_map]; [apply parse_details_m | fin]. }
  destruct (is_empty _).
  { cbn [rmap ml]. now rewrite (m_native (lit "<>") eq_refl). }
  destruct (existsb _ _); [fin|].
  destruct (validate_link _) as [[c [sch|]]|e]; fin.
Qed.
Lemma table_lines_m n r : table_lines n (m r) =
  option_map (fun x => (map m (fst x), m (snd x))) (table_lines n r).
Proof.
  revert r; induction n as [|n IH]; intros r; cbn [table_lines]; [reflexivity|].
  al. destruct (next_if_eq c_pipe r) as [r1|]; cbn [option_map]; [|reflexivity].
  cw. al. rewrite IH. now destruct (table_lines n _) as [[ls r3]|].
Qed.
Lemma filter_m l : filter (fun x => negb (is_empty x)) (map m l) = map m (filter (fun x => negb (is_empty x)) l).
Proof.
  induction l as [|x l IH]; [reflexivity|]. cbn [map filter]. rewrite is_empty_m, IH.
  now destruct (is_empty x).
Qed.
Lemma cells_m l : cells (m l) = map m (cells l).
Proof.
  unfold cells. al. rewrite filter_m, !map_map. apply map_ext. intros x. apply trim_m.
Qed.
Lemma cell_alignment_m x : cell_alignment (m x) = cell_alignment x.
Proof. unfold cell_alignment. now al. Qed.
Lemma usable_m t : is_usable_in_table (mt t) = is_usable_in_table t.
Proof. now destruct t. Qed.
Lemma filter_usable_m l : filter is_usable_in_table (map mt l) = map mt (filter is_usable_in_table l).
Proof.
  induction l as [|x l IH]; [reflexivity|]. cbn [map filter]. rewrite usable_m, IH.
  now destruct (is_usable_in_table x).
Qed.
Lemma mapM_m {A A' B B'} (f : A -> res B) (f' : A' -> res B') (g : A -> A') (h : B -> B') l :
  (forall a, f' (g a) = rmap h (f a)) -> mapM f' (map g l) = rmap (map h) (mapM f l).
Proof.
  intros H. induction l as [|x l IH]; cbn [mapM map]; [reflexivity|].
  rewrite H. destruct (f x); cbn [rmap bind]; [|reflexivity..]. rewrite IH.
  now destruct (mapM f l).
Qed.
Lemma lex_row_m l : lex_row LEX (m l) = rmap (map (map mt)) (lex_row LEX l).
Proof.
  unfold lex_row. rewrite cells_m. apply mapM_m. intros e. rewrite LEX_m.
  destruct (LEX e []); cbn [rmap bind]; [|reflexivity..]. now rewrite filter_usable_m.
Qed.
Lemma combine_m {A B C} (f : B -> C) (l : list A) k :
  combine l (map f k) = map (fun x => match x with (a, b) => (a, f b) end) (combine l k).
Proof. revert k; induction l as [|x l IH]; intros [|y k]; cbn; try reflexivity. now rewrite IH. Qed.
Lemma lex_pipes_m r : lex_pipes LEX (m r) = rmap ml (lex_pipes LEX r).
Proof.
  unfold lex_pipes. al. rewrite table_lines_m.
  destruct (table_lines _ r) as [[lines r1]|]; cbn [option_map fst snd]; [|fin].
  destruct lines as [|head [|align body]]; [fin..|]. cbn [map].
  change (m head :: m align :: map m body) with (map m (head :: align :: body)).
  al. set (ls := head :: align :: body). destruct (_ <? _); [fin|].
  replace (forallb _ (map m ls)) with
    (forallb (fun l => count_matches [c_pipe] l =? count_matches [c_pipe] head) ls).
  2:{ induction ls as [|x ls IH]; [reflexivity|]. cbn [map forallb]. rewrite <- IH. al. reflexivity. }
  destruct (negb _); [fin|].
  rewrite !cells_m, map_map, (map_ext _ _ cell_alignment_m), combine_m.
  rewrite (mapM_m (fun l => bind (lex_row LEX l) (fun cs => Ret (combine (map cell_alignment (cells align)) cs)))
    _ m (map (fun c => match c with (a, ts) => (a, map mt ts) end))).
  - destruct (mapM _ body); cbn [rmap bind ml mt]; [|reflexivity..]. f_equal. f_equal. f_equal.
    apply map_ext. now intros [].
  - intros l. rewrite lex_row_m. destruct (lex_row LEX l); cbn [rmap bind]; [|reflexivity..].
    now rewrite combine_m.
Qed.
Lemma dispatch_m ig last c r :
  dispatch LEX REN L ig (option_map mt last) (pi c) (m (c :: r)) =
  rmap ml (dispatch LEX REN L ig last c (c :: r)).
Proof.
  unfold dispatch. rewrite !ceq_pi by reflexivity. rewrite (blind_digit c).
  destruct (_ && _); [apply lex_heading_m|].
  destruct (ceq c c_nl); [now rewrite lex_newlines_m|].
  destruct (_ || _); [apply lex_tabs_spaces_m|].
  destruct (is_digit c); [apply lex_numbers_m|].
  destruct (_ || _); [now rewrite lex_aster_m|].
  destruct (_ || _); [apply lex_plus_minus_m|].
  destruct (ceq c c_gt); [now rewrite lex_quotes_m|].
  destruct (ceq c c_tilde); [now rewrite lex_tilde_m|].
  destruct (ceq c c_tick); [now rewrite lex_backticks_m|].
  destruct (ceq c c_lbrk); [apply lex_links_m|].
  destruct (ceq c c_bang); [apply lex_images_m|].
  destruct (ceq c c_lt); [apply lex_side_carrot_m|].
  destruct (ceq c c_pipe); [apply lex_pipes_m|].
  destruct (ceq c c_bslash); [now rewrite lex_escaped_m|]. reflexivity.
Qed.
Lemma next_token_m ig last r :
  next_token LEX REN L ig (option_map mt last) (m r) =
  rmap (option_map (fun x => (mt (fst x), m (snd x)))) (next_token LEX REN L ig last r).
Proof.
  destruct r as [|c r]; [reflexivity|]. unfold next_token.
  change (m (c :: r)) with (pi c :: m r). cbv iota. change (pi c :: m r) with (m (c :: r)).
  rewrite dispatch_m. now destruct (dispatch _ _ _ _ _ _ _) as [[]| |].
Qed.
Lemma lex_loop_m n ig last r :
  lex_loop LEX REN L n ig (option_map mt last) (m r) = rmap (map mt) (lex_loop LEX REN L n ig last r).
Proof.
  revert last r; induction n as [|n IH]; intros last r; cbn [lex_loop]; [reflexivity|].
  rewrite next_token_m. destruct (next_token _ _ _ _ _ _) as [[[t r']|]| |]; cbn [rmap bind option_map fst snd];
    [|reflexivity..].
  change (Some (mt t)) with (option_map mt (Some t)). rewrite IH. now destruct (lex_loop _ _ _ _ _ _ _).
Qed.

(** ** The parser *)
Hypothesis pi_back : pi 8617%N = 8617%N.

Ltac nat1 := match goal with
  | |- context [map pi (lit ?x)] => rewrite (m_native (lit x) eq_refl)
  | |- context [map pi [c_nl]] => rewrite (m_native [c_nl] eq_refl)
  | |- context [map pi (?a :: ?b)] => rewrite (m_native (a :: b) eq_refl)
  end.
Ltac nt := repeat rewrite map_app; repeat nat1.

Lemma sanitize_m s : sanitize (m s) = m (sanitize s).
Proof. unfold sanitize. cbv zeta. now al. Qed.
Lemma percent_m s : percent_encode (m s) = m (percent_encode s).
Proof. unfold percent_encode. cbv zeta. now al. Qed.
Lemma fmt_scheme_m s : fmt_scheme (ms s) = m (fmt_scheme s).
Proof. now destruct s. Qed.
Lemma fmt_unsafe_m u : fmt_unsafe (mu u) = m (fmt_unsafe u).
Proof.
  unfold fmt_unsafe. destruct u as [c [s|]]; cbn [mu url_content url_scheme option_map]; cbv zeta; al; nt; [|reflexivity].
  destruct s; cbn [ms fmt_scheme]; nt; reflexivity.
Qed.
Lemma fmt_url_m u : fmt_url (mu u) = m (fmt_url u).
Proof.
  unfold fmt_url. destruct u as [c [s|]]; cbn [mu url_content url_scheme option_map]; cbv zeta;
    rewrite percent_m; al; nt; [|reflexivity]. now rewrite fmt_scheme_m.
Qed.

Definition mp (p : pstate) : pstate :=
  mkP (m (html p)) (quote_level p) (in_task_list p) (in_paragraph p)
      (in_ordered_list p) (in_unordered_list p) (in_code p) (map mm (references p)).
Lemma push_m s p : push (m s) (mp p) = mp (push s p).
Proof. unfold push, mp; cbn. now rewrite map_app. Qed.
Lemma push_n s p : native s = true -> push s (mp p) = mp (push s p).
Proof. intros H. rewrite <- push_m. now rewrite m_native. Qed.
Lemma nrep_n n s : native s = true -> native (nrep n s) = true.
Proof.
  intros H. induction n; cbn [nrep]; [reflexivity|]. unfold native in *. now rewrite forallb_app, H, IHn.
Qed.
Lemma is_blank_m t : is_blank (m t) = is_blank t.
Proof. unfold is_blank. al. reflexivity. Qed.
Lemma open_par_m p : open_par (mp p) = mp (open_par p).
Proof. unfold open_par. destruct p as [? ? ? [] ? ? ? ?]; [reflexivity|]. cbn [in_paragraph mp]. now rewrite <- push_n. Qed.


Lemma set_quote_m q p : set_quote q (mp p) = mp (set_quote q p). Proof. reflexivity. Qed.
Lemma set_task_m b p : set_task b (mp p) = mp (set_task b p). Proof. reflexivity. Qed.
Lemma set_par_m b p : set_par b (mp p) = mp (set_par b p). Proof. reflexivity. Qed.
Lemma set_ol_m b p : set_ol b (mp p) = mp (set_ol b p). Proof. reflexivity. Qed.
Lemma set_ul_m b p : set_ul b (mp p) = mp (set_ul b p). Proof. reflexivity. Qed.
Lemma set_code_m b p : set_code b (mp p) = mp (set_code b p). Proof. reflexivity. Qed.
Ltac ps := repeat first
  [ rewrite push_m | rewrite push_n by first [reflexivity | apply nrep_n; reflexivity]
  | rewrite set_quote_m | rewrite set_task_m | rewrite set_par_m | rewrite set_ol_m
  | rewrite set_ul_m | rewrite set_code_m | rewrite open_par_m ].
Lemma flags_m p : quote_level (mp p) = quote_level p /\ in_task_list (mp p) = in_task_list p /\
  in_paragraph (mp p) = in_paragraph p /\ in_ordered_list (mp p) = in_ordered_list p /\
  in_unordered_list (mp p) = in_unordered_list p /\ in_code (mp p) = in_code p.
Proof. repeat split. Qed.
Ltac flags p := let F := fresh in
  pose proof (flags_m p) as F; destruct F as (? & ? & ? & ? & ? & ?);
  repeat match goal with H : _ (mp p) = _ |- _ => rewrite ?H; clear H end.

Lemma pre_m t p : pre (mt t) (mp p) = mp (pre t p).
Proof.
  destruct t; cbn [pre mt is_list_or_newline is_task_or_newline is_inline is_par_closer
    is_quote_or_newline andb]; rewrite ?is_blank_m; try (destruct (is_blank _); [reflexivity|]); flags p;
    repeat match goal with |- context [if ?b then _ else _] => destruct b end; ps; reflexivity.
Qed.
Lemma drop_blank_tail_m t : drop_blank_tail (m t) = m (drop_blank_tail t).
Proof.
  unfold drop_blank_tail, rfind_split_at. al.
  destruct (rsplit_once c_nl t) as [[a b]|]; cbn [option_map mm fst snd]; [|reflexivity].
  replace (c_nl :: m b) with (m (c_nl :: b)) by (cbn [map]; now rewrite (pi_native c_nl eq_refl)).
  al. destruct (forallb is_whitespace (c_nl :: b)) eqn:E; [|reflexivity].
  assert (native (c_nl :: b) = true) as W.
  { unfold native. rewrite forallb_forall in *. intros x X. specialize (E x X).
    unfold foreign. rewrite E. cbn [negb]. now rewrite andb_false_r. }
  rewrite (m_native _ W). now apply trim_end_matches_m.
Qed.
Lemma footnote_ref_m r n : footnote_ref (m r) n = m (footnote_ref r n).
Proof. unfold footnote_ref. rewrite !sanitize_m. nt. now rewrite dec_m. Qed.
Lemma pieces_m n l : footnote_pieces n (map m l) = m (footnote_pieces n l).
Proof.
  revert n; induction l as [|x l IH]; intros n; cbn [footnote_pieces map]; [reflexivity|].
  al. destruct (ends_with _ _); rewrite map_app, IH; [now rewrite footnote_ref_m | reflexivity].
Qed.
Lemma plaintext_m t : plaintext_html (m t) = m (plaintext_html t).
Proof.
  unfold plaintext_html. cbv zeta. rewrite drop_blank_tail_m. al.
  destruct (_ && _); [apply pieces_m | apply sanitize_m].
Qed.
Lemma header_m l t lbl : header_html l (m t) (option_map m lbl) = m (header_html l t lbl).
Proof.
  unfold header_html. destruct lbl as [x|]; cbn [option_map]; al; rewrite ?sanitize_m; nt; now rewrite dec_m.
Qed.
Lemma image_m l t : image_html (m l) (option_map m t) = m (image_html l t).
Proof.
  unfold image_html. al. destruct (is_empty _); destruct t; cbn [option_map]; rewrite ?sanitize_m; nt; reflexivity.
Qed.
Lemma link_m l t ht : link_html (mu l) (option_map m t) (option_map m ht) = m (link_html l t ht).
Proof.
  unfold link_html. destruct t, ht; cbn [option_map]; rewrite ?sanitize_m, ?fmt_url_m, ?fmt_unsafe_m; nt; reflexivity.
Qed.
Lemma detail_m s i : detail_html (m s) (m i) = m (detail_html s i).
Proof.
  unfold detail_html. rewrite sanitize_m. nt. now rewrite (m_native (crep 7 c_tab) eq_refl).
Qed.
Lemma task_m c t : task_html c (m t) = m (task_html c t).
Proof. unfold task_html. destruct c; rewrite sanitize_m; nt; reflexivity. Qed.
Lemma quote_move_n q l : native (quote_move q l) = true.
Proof. unfold quote_move. destruct (_ =? _); [reflexivity|]. destruct (_ <? _); now apply nrep_n. Qed.
Lemma fmt_align_m a : m (fmt_alignment a) = fmt_alignment a.
Proof. apply m_native. now destruct a. Qed.
Lemma th_m h : th_html (fst h, m (snd h)) = m (th_html h).
Proof. unfold th_html. cbn [fst snd]. rewrite sanitize_m. nt. now rewrite fmt_align_m. Qed.
Lemma td_m a x : td_html a (m x) = m (td_html a x).
Proof. unfold td_html. nt. now rewrite fmt_align_m. Qed.
Lemma ref_m r : ref_html (mm r) = m (ref_html r).
Proof.
  unfold ref_html, mm. cbn [fst snd]. rewrite !sanitize_m.
  assert (@map N char pi [8617%N] = [8617%N]) as E by (cbn [map]; now rewrite pi_back).
  repeat rewrite map_app. rewrite E. repeat nat1. reflexivity.
Qed.
Lemma flat_map_m {A B} (f : A -> str) (g : B -> str) (h : A -> B) l :
  (forall a, g (h a) = m (f a)) -> flat_map g (map h l) = m (flat_map f l).
Proof. intros H. induction l as [|x l IH]; cbn [flat_map map]; [reflexivity|]. now rewrite map_app, IH, H. Qed.
Lemma refs_m rs : refs_html (map mm rs) = m (refs_html rs).
Proof.
  unfold refs_html. destruct rs as [|r rs]; [reflexivity|].
  set (l := r :: rs). change (map mm l) with (mm r :: map mm rs). cbv iota.
  change (mm r :: map mm rs) with (map mm l). rewrite (flat_map_m _ _ _ _ ref_m). nt. reflexivity.
Qed.
Lemma finish_m p : finish (mp p) = m (finish p).
Proof.
  unfold finish, ends_nl. cbv zeta. flags p. change (html (mp p)) with (m (html p)).
  change (references (mp p)) with (map mm (references p)). rewrite refs_m, map_app. f_equal.
  set (a1 := if in_paragraph p then _ else _). set (a2 := nrep _ _). set (a3 := if in_task_list p || _ then _ else _).
  set (a4 := if in_ordered_list p then _ else _).
  assert (m ((((html p ++ a1) ++ a2) ++ a3) ++ a4) = (((m (html p) ++ a1) ++ a2) ++ a3) ++ a4) as E.
  { rewrite !map_app. f_equal; [f_equal; [f_equal; [f_equal|]|]|].
    - apply m_native. subst a1. now destruct (in_paragraph p).
    - apply nrep_m. reflexivity.
    - apply m_native. subst a3. now destruct (_ || _).
    - apply m_native. subst a4. now destruct (in_ordered_list p). }
  rewrite <- E. set (h4 := (((html p ++ a1) ++ a2) ++ a3) ++ a4). al.
  assert (m (h4 ++ [c_nl]) = m h4 ++ [c_nl]) as E4 by (nt; reflexivity).
  destruct (ends_with [c_nl] h4) eqn:N4; destruct (in_code p); rewrite <- ?E4; al; rewrite ?N4;
    try reflexivity; try (destruct (ends_with [c_nl] (h4 ++ [c_nl]))); nt; reflexivity.
Qed.

Variable RENDER : str -> res str.
Variable PARSE : list token -> res str.
Hypothesis RENDER_m : forall s, RENDER (m s) = rmap m (RENDER s).
Hypothesis PARSE_m : forall ts, PARSE (map mt ts) = rmap m (PARSE ts).

Lemma list_child_m t : list_child RENDER (mt t) = rmap m (list_child RENDER t).
Proof.
  destruct t; cbn [list_child mt]; try reflexivity. unfold pre_code_pad. al.
  destruct (starts_with _ _); rewrite RENDER_m; destruct (RENDER _); cbn [rmap bind]; al; reflexivity.
Qed.
Lemma cell_token_m e t : cell_token PARSE (map mt e) (mt t) = rmap m (cell_token PARSE e t).
Proof.
  destruct t; cbn [cell_token mt]; try apply PARSE_m; cbn [rmap]; rewrite ?sanitize_m; nt; reflexivity.
Qed.
Lemma concat_m l : concat (map m l) = m (concat l).
Proof. symmetry. apply concat_map. Qed.
Lemma cell_m e : cell_html PARSE (match e with (a, ts) => (a, map mt ts) end) = rmap m (cell_html PARSE e).
Proof.
  destruct e as [a ts]. unfold cell_html. cbn [fst snd].
  rewrite (mapM_m (cell_token PARSE ts) _ mt m) by (intros; apply cell_token_m).
  destruct (mapM _ ts); cbn [rmap bind]; [|reflexivity..]. now rewrite concat_m, td_m.
Qed.
Lemma row_m row : row_html PARSE (map (fun c => match c with (a, ts) => (a, map mt ts) end) row) =
  rmap m (row_html PARSE row).
Proof.
  unfold row_html. rewrite (mapM_m (cell_html PARSE) _ _ m) by (intros; apply cell_m).
  destruct (mapM _ row); cbn [rmap bind]; [|reflexivity..]. rewrite concat_m. nt. reflexivity.
Qed.
Lemma table_m hs rows :
  table_html PARSE (map (fun h => (fst h, m (snd h))) hs)
    (map (map (fun c => match c with (a, ts) => (a, map mt ts) end)) rows) =
  rmap m (table_html PARSE hs rows).
Proof.
  unfold table_html. rewrite (mapM_m (row_html PARSE) _ _ m) by (intros; apply row_m).
  destruct (mapM _ rows); cbn [rmap bind]; [|reflexivity..].
  rewrite concat_m, (flat_map_m th_html _ _ _ th_m). nt. reflexivity.
Qed.
Lemma plain_m ts : forallb is_plaintext (map mt ts) = forallb is_plaintext ts.
Proof. induction ts as [|t ts IH]; [reflexivity|]. cbn [map forallb]. rewrite IH. now destruct t. Qed.
Lemma row0_m {A B} (f : A -> B) rows : row0_len (map (map f) rows) = row0_len rows.
Proof. destruct rows; cbn; [reflexivity|]. now rewrite map_length. Qed.

Lemma body_m t p : body RENDER PARSE (mt t) (mp p) = rmap mp (body RENDER PARSE t p).
Proof.
  destruct t; cbn [body mt rmap]; cbv zeta; flags p.
  - rewrite is_blank_m. destruct (is_blank t); [reflexivity|]. now rewrite plaintext_m, push_m.
  - now rewrite header_m, push_m.
  - rewrite (mapM_m (list_child RENDER) _ _ m) by (intros; apply list_child_m).
    destruct (mapM _ toks) as [parts| |]; cbn [rmap bind]; [|reflexivity..]. f_equal.
    rewrite plain_m, concat_m.
    replace (lit "<li>" ++ (if forallb is_plaintext toks then [c_nl] else []) ++ m (concat parts) ++ lit "</li>" ++ [c_nl])
      with (m (lit "<li>" ++ (if forallb is_plaintext toks then [c_nl] else []) ++ concat parts ++ lit "</li>" ++ [c_nl]))
      by (destruct (forallb is_plaintext toks); nt; reflexivity).
    destruct (in_unordered_list p); ps; reflexivity.
  - rewrite sanitize_m. f_equal.
    replace (lit "<li>" ++ [c_nl] ++ m (sanitize t) ++ lit "</li>" ++ [c_nl])
      with (m (lit "<li>" ++ [c_nl] ++ sanitize t ++ lit "</li>" ++ [c_nl])) by (nt; reflexivity).
    destruct (in_ordered_list p); ps; reflexivity.
  - f_equal. rewrite <- push_m, sanitize_m. nt. reflexivity.
  - f_equal. rewrite <- push_m, sanitize_m. nt. reflexivity.
  - f_equal. rewrite <- push_m, sanitize_m. nt. reflexivity.
  - reflexivity.
  - reflexivity.
  - f_equal. now apply push_n.
  - f_equal. now apply push_n.
  - f_equal. now apply push_n.
  - f_equal. rewrite <- push_m, sanitize_m. nt. reflexivity.
  - now rewrite sanitize_m, push_m.
  - reflexivity.
  - rewrite is_empty_m.
    assert (forall q, in_paragraph q = in_paragraph p ->
      set_quote level (push (quote_move (quote_level (if in_paragraph p then set_par false (push (lit "</p>") (mp p)) else mp p)) level)
        (if in_paragraph p then set_par false (push (lit "</p>") (mp p)) else mp p)) =
      mp (set_quote level (push (quote_move (quote_level (if in_paragraph p then set_par false (push (lit "</p>") p) else p)) level)
        (if in_paragraph p then set_par false (push (lit "</p>") p) else p)))) as Q.
    { intros _ _. destruct (in_paragraph p); cbn [quote_level set_par push mp];
        rewrite <- set_quote_m; f_equal; rewrite <- push_n by apply quote_move_n; f_equal.
      rewrite <- set_par_m. f_equal. now rewrite <- push_n. }
    rewrite (Q p eq_refl). destruct (is_empty t); [reflexivity|].
    al. rewrite sanitize_m, RENDER_m. destruct (RENDER _); cbn [rmap bind]; [|reflexivity..].
    al. now rewrite push_m.
  - now rewrite image_m, push_m.
  - now rewrite link_m, push_m.
  - rewrite PARSE_m. destruct (PARSE toks); cbn [rmap bind]; [|reflexivity..]. f_equal.
    rewrite detail_m. destruct (in_paragraph p); ps; reflexivity.
  - rewrite row0_m, map_length. destruct (row0_len rows); [|reflexivity]. destruct (negb _); [reflexivity|].
    rewrite table_m. destruct (table_html _ _ _); cbn [rmap bind]; [|reflexivity..]. now rewrite push_m.
  - rewrite task_m. f_equal. destruct (in_task_list p); ps; reflexivity.
  - unfold add_ref, mp. cbn. now rewrite map_app.
Qed.
Lemma parse_loop_m ts p :
  parse_loop RENDER PARSE (map mt ts) (mp p) = rmap mp (parse_loop RENDER PARSE ts p).
Proof.
  revert p; induction ts as [|t ts IH]; intros p; cbn [parse_loop map]; [reflexivity|].
  rewrite pre_m, body_m. destruct (body _ _ _ _); cbn [rmap bind]; [apply IH|reflexivity..].
Qed.
Lemma parse_body_m ts : parse_body RENDER PARSE (map mt ts) = rmap m (parse_body RENDER PARSE ts).
Proof.
  unfold parse_body. change pinit with (mp pinit) at 1. rewrite parse_loop_m.
  destruct (parse_loop _ _ _ _); cbn [rmap bind]; [|reflexivity..]. now rewrite finish_m.
Qed.
End Alike.

(** ** The knot *)
Section Knot.
Variable pi : char -> char.
Hypothesis pi_native : forall c, foreign c = false -> pi c = c.
Hypothesis pi_foreign : forall c, foreign c = true -> foreign (pi c) = true.
Hypothesis pi_back : pi 8617%N = 8617%N.

Lemma lex_parse_m f :
  (forall s ig, lex f (map pi s) ig = rmap (map (mt pi)) (lex f s ig)) /\
  (forall ts, parse f (map (mt pi) ts) = rmap (map pi) (parse f ts)).
Proof.
  induction f as [|f [IHl IHp]]; [split; reflexivity|].
  assert (forall s ig, bind (lex f (map pi s) ig) (parse f) = rmap (map pi) (bind (lex f s ig) (parse f))) as R.
  { intros s ig. rewrite IHl. destruct (lex f s ig); cbn [rmap bind]; [apply IHp|reflexivity..]. }
  split.
  - intros s ig. cbn [lex]. rewrite map_length.
    exact (lex_loop_m pi pi_native pi_foreign _ _ _ IHl R _ ig None s).
  - intros ts. cbn [parse].
    exact (parse_body_m pi pi_native pi_foreign pi_back _ _ (fun s => R s []) IHp ts).
Qed.

Theorem render_m f s : render f (map pi s) = rmap (map pi) (render f s).
Proof.
  unfold render, render_ignore. destruct (lex_parse_m f) as [L P]. rewrite L.
  destruct (lex f s []); cbn [rmap bind]; [apply P|reflexivity..].
Qed.
End Knot.
