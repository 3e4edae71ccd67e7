(** * MarkdownFacts: the renderer displays what the rules of Markdown.v say. *)
From Coq Require Import Ascii String.
From Verif Require Import Strings StringsFacts Token Iter Lexer Parser LexerFacts LexMono SanitizeFacts
  LinkFacts NoPanic DetailsFacts RawHtml Exec Markdown.
Open Scope list_scope.

Lemma escaped_sanitize t : escaped t = sanitize t.
Proof. symmetry. apply sanitize_flat. Qed.
Lemma times_nrep n t : times n t = nrep n t.
Proof. unfold times. induction n as [|n IH]; [reflexivity|]. cbn [repeat concat nrep]. now rewrite IH. Qed.

(** ** Parser states *)
Definition at_state (b c : bool) (q : nat) (l : listkind) (p : pstate) : Prop :=
  in_paragraph p = b /\ in_code p = c /\ quote_level p = q /\
  in_ordered_list p = (match l with LOl => true | _ => false end) /\
  in_unordered_list p = (match l with LUl => true | _ => false end) /\
  in_task_list p = (match l with LTask => true | _ => false end).

(** Token [t] leads from one state to the other, adding [h] and the notes [ns]. *)
Definition effect (t : token) (b c : bool) (q : nat) (l : listkind)
    (b' c' : bool) (q' : nat) (l' : listkind) (h : str) (ns : list (str * str)) : Prop :=
  forall p, at_state b c q l p -> exists p', does t p p' /\ at_state b' c' q' l' p' /\
    html p' = html p ++ h /\ references p' = references p ++ ns.

Ltac eff :=
  let hh := fresh "hh" in let rr := fresh "rr" in
  intros [hh ? ? ? ? ? ? rr] (? & ? & ? & ? & ? & ?);
  cbn [in_paragraph in_code quote_level in_ordered_list in_unordered_list in_task_list html references] in *; subst.

(** Inline tokens. *)
Definition tok_out (t : token) : option (bool * str) :=
  match t with
  | Plaintext t => Some (if is_blank t then (false, []) else (true, plaintext_html t))
  | Italic t => Some (true, em_tag t)
  | Bold t => Some (true, strong_tag t)
  | BoldItalic t => Some (true, both_tag t)
  | Strikethrough t => Some (true, strike_tag t)
  | Link u t ht => Some (true, link_html u t ht)
  | Image u t => Some (false, image_html u t)
  | LineBreak => Some (false, [])
  | _ => None
  end.

Lemma eff_blank t h b c q : tok_out t = Some (false, h) -> effect t b c q LNone b c q LNone h [].
Proof.
  intros E. eff. destruct t; try discriminate E; cbn [tok_out] in E.
  - destruct (is_blank t) eqn:B; [|discriminate E]. injection E as <-.
    eexists. split; [apply does_ret; intros R PA; cbn [pre body]; rewrite !B; reflexivity|].
    cbn. repeat split; auto; now rewrite app_nil_r.
  - injection E as <-. eexists. split; [apply does_ret; intros R PA; cbn; reflexivity|].
    cbn. repeat split; auto; now rewrite app_nil_r.
  - injection E as <-. eexists. split; [apply does_ret; intros R PA; cbn; reflexivity|].
    cbn. repeat split; auto; now rewrite app_nil_r.
Qed.

Ltac done_eff := cbn; rewrite ?escaped_sanitize, ?times_nrep, ?app_nil_r, <- ?app_assoc; repeat split; auto.
Lemma eff_open t h c q l : tok_out t = Some (true, h) ->
  effect t false c q l true c 0 l (times q (lit "</blockquote>") ++ lit "<p>" ++ h) [].
Proof.
  intros E. eff. destruct t; try discriminate E; cbn [tok_out] in E.
  - destruct (is_blank t) eqn:B; [discriminate E|]. injection E as <-.
    eexists. split; [apply does_ret; intros R PA; cbn [pre body]; rewrite !B; reflexivity|]. done_eff.
  - injection E as <-. destruct l; (eexists; split; [apply does_ret; intros R PA; reflexivity|]; unfold em_tag; done_eff).
  - injection E as <-. destruct l; (eexists; split; [apply does_ret; intros R PA; reflexivity|]; unfold strong_tag; done_eff).
  - injection E as <-. destruct l; (eexists; split; [apply does_ret; intros R PA; reflexivity|]; unfold both_tag; done_eff).
  - injection E as <-. destruct l; (eexists; split; [apply does_ret; intros R PA; reflexivity|]; unfold strike_tag; done_eff).
  - injection E as <-. destruct l; (eexists; split; [apply does_ret; intros R PA; reflexivity|]; done_eff).
Qed.
Lemma eff_more t h c q : tok_out t = Some (true, h) -> effect t true c q LNone true c q LNone h [].
Proof.
  intros E. eff. destruct t; try discriminate E; cbn [tok_out] in E.
  - destruct (is_blank t) eqn:B; [discriminate E|]. injection E as <-.
    eexists. split; [apply does_ret; intros R PA; cbn [pre body]; rewrite !B; reflexivity|]. done_eff.
  - injection E as <-. (eexists; split; [apply does_ret; intros R PA; reflexivity|]; unfold em_tag; done_eff).
  - injection E as <-. (eexists; split; [apply does_ret; intros R PA; reflexivity|]; unfold strong_tag; done_eff).
  - injection E as <-. (eexists; split; [apply does_ret; intros R PA; reflexivity|]; unfold both_tag; done_eff).
  - injection E as <-. (eexists; split; [apply does_ret; intros R PA; reflexivity|]; unfold strike_tag; done_eff).
  - injection E as <-. (eexists; split; [apply does_ret; intros R PA; reflexivity|]; done_eff).
Qed.
Lemma eff_more_list t h c q l : l <> LNone -> tok_out t = Some (true, h) ->
  effect t true c q l true c q LNone (list_close l ++ [c_nl] ++ h) [].
Proof.
  intros NL E. eff. destruct l; [easy|..]; (destruct t; try discriminate E; cbn [tok_out] in E;
  [destruct (is_blank t) eqn:B; [discriminate E|]; injection E as <-;
    eexists; (split; [apply does_ret; intros R PA; cbn [pre body]; rewrite !B; reflexivity|]); done_eff|
   injection E as <-; eexists; (split; [apply does_ret; intros R PA; reflexivity|]);
     unfold em_tag, strong_tag, both_tag, strike_tag; done_eff..]).
Qed.

(** ** Lexing of pieces *)
Definition ig_of (hd : bool) : list char := if hd then [c_hash] else [].
Definition lexed (hd : bool) (s : str) (t : token) (r : str) : Prop :=
  forall last, tok_step (ig_of hd) last (s ++ r) t r.

Lemma starts_in_false cs r c r' : starts_in cs r = false -> r = c :: r' -> ~ In c cs.
Proof. intros H -> I. cbn [starts_in] in H. apply mem_char_iff in I. congruence. Qed.
Lemma starts_in_take cs r f : (forall c, f c = true -> In c cs) -> starts_in cs r = false ->
  take_while f r = [] /\ drop_while f r = r.
Proof.
  intros H S. destruct r as [|c r]; [auto|]. cbn [starts_in] in S.
  assert (E : f c = false). { destruct (f c) eqn:E; [|auto]. apply H, mem_char_iff in E. congruence. }
  cbn [take_while drop_while]. now rewrite E.
Qed.
Lemma run_take cs s r f : forallb f s = true -> (forall c, f c = true -> In c cs) -> starts_in cs r = false ->
  take_while f (s ++ r) = s /\ drop_while f (s ++ r) = r.
Proof.
  intros F H S. destruct (starts_in_take _ _ f H S) as [E1 E2].
  rewrite take_while_app, drop_while_app by exact F. now rewrite E1, E2, app_nil_r.
Qed.
Lemma crep_forall n c f : f c = true -> forallb f (crep n c) = true.
Proof. intros H. apply forallb_forall. intros x I. apply repeat_spec in I as ->. exact H. Qed.
Lemma crep_length n c : length (crep n c) = n.
Proof. apply repeat_length. Qed.
Lemma crep_cons n c : 1 <= n -> exists n', n = S n' /\ crep n c = c :: crep n' c.
Proof. destruct n as [|n]; [lia|]. exists n. auto. Qed.

(** Visible and blank single characters. *)
Lemma is_blank_one c : is_blank [c] = is_whitespace c.
Proof. unfold is_blank, trim, trim_end, trim_end_by. cbn. destruct (is_whitespace c) eqn:E; cbn; [auto|]. now rewrite E. Qed.
Lemma is_blank_all t : forallb is_whitespace t = true -> is_blank t = true.
Proof. intros H. unfold is_blank, trim. unfold trim_start_by. now rewrite drop_while_all. Qed.
Lemma is_blank_cons x t : is_whitespace x = false -> is_blank (x :: t) = false.
Proof.
  intros H. unfold is_blank, trim. unfold trim_start_by. cbn [drop_while]. rewrite H.
  unfold trim_end, trim_end_by. destruct (rev _) eqn:E; [exfalso|auto].
  apply (f_equal (@rev char)) in E. rewrite rev_involutive in E. cbn [rev] in E.
  assert (drop_while is_whitespace (rev t ++ [x]) <> []); [|easy].
  clear E. induction (rev t) as [|y l IH]; cbn [app drop_while]; [now rewrite H|].
  destruct (is_whitespace y); [exact IH | easy].
Qed.
Lemma whitespace_nl : is_whitespace c_nl = true. Proof. reflexivity. Qed.
Lemma contains_one p s : 1 < length p -> length s <= 1 -> contains p s = false.
Proof.
  intros H L. destruct (contains p s) eqn:E; [|auto]. apply contains_iff in E. apply infix_length in E. lia.
Qed.
Lemma literal_html t : literal t -> is_blank t = false /\ plaintext_html t = escaped t.
Proof.
  intros ((x & t' & -> & W) & T & N). split; [now apply is_blank_cons|].
  assert (D : drop_blank_tail (x :: t') = x :: t').
  { destruct T as [T|(t2 & y & -> & Wy)]; [|now apply drop_blank_tail_id].
    unfold drop_blank_tail, rfind_split_at. apply rsplit_once_none in T. now rewrite T. }
  unfold plaintext_html. rewrite D.
  assert (C : contains [c_lbrk; c_caret] (x :: t') && contains [c_rbrk] (x :: t') = false).
  { apply andb_false_iff. destruct N as [N|N]; [left|right].
    - destruct (contains _ _) eqn:E; [|auto]. apply contains_iff in E. now elim N.
    - destruct (contains _ _) eqn:E; [|auto]. apply contains_iff in E. elim N.
      eapply infix_In; [exact E|now left]. }
  rewrite C. unfold trim_start_by. cbn [drop_while].
  assert (E : ceq c_nl x = false). { apply ceq_neq. intros <-. discriminate W. }
  rewrite E. now rewrite escaped_sanitize.
Qed.
Lemma plaintext_one c : is_whitespace c = false -> plaintext_html [c] = esc c.
Proof.
  intros W. assert (L : literal [c]).
  { split; [now exists c, []|]. split; [right; now exists [], c|]. left. rewrite <- contains_iff.
    rewrite contains_one; cbn; auto. }
  apply literal_html in L as [_ ->]. cbn. apply app_nil_r.
Qed.
Lemma out_char c : tok_out (Plaintext [c]) = Some (visible c, show c).
Proof.
  cbn [tok_out]. rewrite is_blank_one. unfold visible, show. destruct (is_whitespace c) eqn:E; [reflexivity|].
  now rewrite plaintext_one.
Qed.
Lemma out_literal t : literal t -> tok_out (Plaintext t) = Some (true, escaped t).
Proof. intros L. apply literal_html in L as [B E]. cbn [tok_out]. now rewrite B, E. Qed.
Lemma crep_literal n c : 1 <= n -> is_whitespace c = false -> c <> c_lbrk -> literal (crep n c).
Proof.
  intros Hn W N. destruct (crep_cons n c Hn) as (n' & -> & E). split; [rewrite E; eauto|]. split.
  - left. intros I. apply repeat_spec in I. subst c. discriminate W.
  - left. intros I. assert (J : In c_lbrk (crep (S n') c)) by (eapply infix_In; [exact I | now left]).
    apply repeat_spec in J. congruence.
Qed.

(** The character under the cursor decides: *)
Definition disp (hd : bool) (c : char) (s : str) (l : lres) : Prop :=
  forall L R n last, dispatch L R n (ig_of hd) last c s = Ret l.
Lemma lexed_ok hd c s r t : disp hd c (c :: s ++ r) (LOk t r) -> lexed hd (c :: s) t r.
Proof. intros H last. exists 0. cbn [app next_token]. now rewrite H. Qed.
Lemma lexed_err hd c s r e : disp hd c (c :: s ++ r) (LErr e r) -> lexed hd (c :: s) (Plaintext e) r.
Proof. intros H last. exists 0. cbn [app next_token]. now rewrite H. Qed.
(** The same with any way of writing the text. *)
Lemma lexed_okE hd c s r s1 t : s = c :: s1 -> disp hd c (s ++ r) (LOk t r) -> lexed hd s t r.
Proof. intros -> H. now apply lexed_ok. Qed.
Lemma lexed_errE hd c s r s1 e : s = c :: s1 -> disp hd c (s ++ r) (LErr e r) -> lexed hd s (Plaintext e) r.
Proof. intros -> H. now apply lexed_err. Qed.

Lemma digit_in c : is_digit c = true -> In c (lit "0123456789").
Proof.
  unfold is_digit. intros H. apply andb_true_iff in H as [H1 H2]. apply N.leb_le in H1, H2.
  assert (c = 48 \/ c = 49 \/ c = 50 \/ c = 51 \/ c = 52 \/ c = 53 \/ c = 54 \/ c = 55 \/ c = 56 \/ c = 57)%N as E by lia.
  repeat (destruct E as [->|E]; [vm_compute; tauto|]). subst. vm_compute; tauto.
Qed.
Lemma digit_not c x : is_digit c = true -> mem_char x (lit "0123456789") = false -> ceq c x = false.
Proof. intros H N. apply ceq_neq. intros ->. apply digit_in, mem_char_iff in H. congruence. Qed.
Lemma plain_not c x : plain c = true -> mem_char x syntax_chars = true -> ceq c x = false.
Proof.
  unfold plain. intros H I. apply negb_true_iff in H. apply ceq_neq. intros ->. congruence.
Qed.
Lemma plain_not_digit c : plain c = true -> is_digit c = false.
Proof.
  unfold plain. intros H. apply negb_true_iff in H. destruct (is_digit c) eqn:E; [|auto].
  apply digit_in in E. assert (mem_char c syntax_chars = true); [|congruence].
  apply mem_char_iff. revert E. apply in_lits. vm_compute. reflexivity.
Qed.
Lemma disp_plain hd c r : plain c = true -> disp hd c (c :: r) (LOk (Plaintext [c]) r).
Proof.
  intros P L R n last. unfold dispatch.
  rewrite !(plain_not c) by (exact P || reflexivity). rewrite plain_not_digit by exact P. reflexivity.
Qed.
Lemma disp_digit hd c r l : is_digit c = true -> lex_numbers (c :: r) = Ret l -> disp hd c (c :: r) l.
Proof.
  intros P E L R n last. unfold dispatch.
  rewrite !(digit_not c) by (exact P || reflexivity). rewrite P. exact E.
Qed.
Lemma disp_hash_head c r : c = c_hash -> disp true c (c :: r) (LOk (Plaintext [c]) r).
Proof. intros -> L R n last. reflexivity. Qed.

Lemma out_escaped t h : literal t -> escaped t = h -> tok_out (Plaintext t) = Some (true, h).
Proof. intros L <-. now apply out_literal. Qed.
Lemma crep_escaped n c : esc c = [c] -> escaped (crep n c) = crep n c.
Proof. intros H. unfold escaped. induction n as [|n IH]; [reflexivity|]. cbn [crep repeat flat_map]. fold (crep n c). now rewrite H, IH. Qed.
Lemma not_in_ceq c cs x : ~ In c cs -> In x cs -> ceq c x = false.
Proof. intros N I. apply ceq_neq. intros ->. auto. Qed.
Lemma starts_in_peek c cs r : starts_in cs r = false -> In c cs -> peek_is c r = false.
Proof.
  intros H I. destruct r as [|x r]; [auto|]. cbn. apply (not_in_ceq x cs c); [|exact I].
  eapply starts_in_false; eauto.
Qed.
Lemma starts_in_next c cs r : starts_in cs r = false -> In c cs -> next_if_eq c r = None.
Proof.
  intros H I. destruct r as [|x r]; [auto|]. cbn. rewrite (not_in_ceq x cs c); [auto| |exact I].
  eapply starts_in_false; eauto.
Qed.

Lemma lex_hashes hd r n : hd = false -> 1 <= n -> starts_in [c_hash] r = false ->
  6 < n \/ starts_in [c_sp; c_tab; c_nl] r = false -> lexed hd (crep n c_hash) (Plaintext (crep n c_hash)) r.
Proof.
  intros -> Hn S H. destruct (crep_cons n c_hash Hn) as (n' & E & EC). rewrite EC at 1.
  apply lexed_err. rewrite app_comm_cons, <- EC. intros L R k last.
  change (dispatch L R k (ig_of false) last c_hash (crep n c_hash ++ r)) with (lex_heading R (crep n c_hash ++ r)).
  unfold lex_heading, consume_while.
  destruct (run_take [c_hash] (crep n c_hash) r (ceq c_hash)) as [-> ->]; auto.
  { apply crep_forall, ceq_refl. }
  { intros c I. apply ceq_eq in I. subst. now left. }
  rewrite crep_length. destruct (6 <? n) eqn:L6; [reflexivity|]. apply Nat.ltb_ge in L6.
  destruct H as [H|H]; [lia|]. unfold heading_sep.
  rewrite !(starts_in_next _ _ r H) by (cbn; tauto). rewrite (starts_in_peek _ _ r H) by (cbn; tauto). reflexivity.
Qed.
Lemma is_sp_tab_in c : is_sp_tab c = true -> In c blank_chars.
Proof. unfold is_sp_tab. intros H. apply orb_true_iff in H as [H|H]; apply ceq_eq in H; subst; cbn; auto. Qed.
Lemma disp_sp hd r l : (forall last, lex_tabs_spaces last (c_sp :: r) = Ret l) -> disp hd c_sp (c_sp :: r) l.
Proof. intros H L R n last. destruct hd; exact (H last). Qed.
Lemma disp_tab hd r l : (forall last, lex_tabs_spaces last (c_tab :: r) = Ret l) -> disp hd c_tab (c_tab :: r) l.
Proof. intros H L R n last. destruct hd; exact (H last). Qed.
Lemma no_tab_crep n : contains_char c_tab (crep n c_sp) = false.
Proof. apply contains_char_false. intros I. apply repeat_spec in I. discriminate I. Qed.
Lemma lex_blanks hd r n : 1 <= n <= 3 -> starts_in blank_chars r = false -> lexed hd (crep n c_sp) (Plaintext (crep n c_sp)) r.
Proof.
  intros Hn S. destruct (crep_cons n c_sp (proj1 Hn)) as (n' & E & EC). rewrite EC at 1.
  apply lexed_err, disp_sp. intros last. unfold lex_tabs_spaces. cbn [length lex_tabs_spaces_go].
  rewrite app_comm_cons, <- EC. unfold consume_while.
  destruct (run_take blank_chars (crep n c_sp) r is_sp_tab) as [-> ->]; auto using is_sp_tab_in.
  { now apply crep_forall. }
  rewrite crep_length, no_tab_crep.
  assert (E1 : (1 <=? n) = true) by (apply Nat.leb_le; lia).
  assert (E2 : (n <=? 3) = true) by (apply Nat.leb_le; lia). rewrite E1, E2. reflexivity.
Qed.
Lemma lex_break hd r n : 4 <= n -> lexed hd (crep n c_sp) LineBreak (c_nl :: r).
Proof.
  intros Hn. destruct (crep_cons n c_sp ltac:(lia)) as (n' & E & EC). rewrite EC at 1.
  apply lexed_ok, disp_sp. intros last. unfold lex_tabs_spaces. cbn [length lex_tabs_spaces_go].
  rewrite app_comm_cons, <- EC. unfold consume_while.
  destruct (run_take blank_chars (crep n c_sp) (c_nl :: r) is_sp_tab) as [-> ->]; auto using is_sp_tab_in.
  { now apply crep_forall. }
  rewrite crep_length, no_tab_crep.
  assert (E1 : (2 <=? n) = true) by (apply Nat.leb_le; lia).
  assert (E2 : (n <=? 3) = false) by (apply Nat.leb_gt; lia). rewrite E1, E2, andb_false_r. reflexivity.
Qed.
Lemma lex_newline hd r : starts_in [c_nl] r = false -> lexed hd [c_nl] (Plaintext [c_nl]) r.
Proof.
  intros S. apply lexed_err. intros L R n last.
  assert (G : lex_newlines ([c_nl] ++ r) = LErr [c_nl] r).
  { unfold lex_newlines, consume_while. destruct (run_take [c_nl] [c_nl] r (ceq c_nl)) as [-> ->]; auto.
    intros c I. apply ceq_eq in I. subst. now left. }
  cbn [app] in *. unfold dispatch. rewrite G. destruct hd; reflexivity.
Qed.
Lemma lex_digit hd r d : is_digit d = true -> starts_in [c_dot] r = false -> lexed hd [d] (Plaintext [d]) r.
Proof.
  intros D S. apply lexed_err, disp_digit; [exact D|]. cbn [app lex_numbers].
  now rewrite (starts_in_next _ _ r S) by (cbn; tauto).
Qed.
Lemma lex_digit_dot hd r d : is_digit d = true -> starts_in [c_sp] r = false -> lexed hd [d; c_dot] (Plaintext [d; c_dot]) r.
Proof.
  intros D S. apply lexed_err, disp_digit; [exact D|]. cbn [app lex_numbers next_if_eq].
  change (ceq c_dot c_dot) with true. cbn iota. rewrite (starts_in_next _ _ r S) by (cbn; tauto).
  change (d :: c_dot :: r) with ([d; c_dot] ++ r). now rewrite substring_app.
Qed.
Lemma lex_bang hd r : starts_in [c_lbrk] r = false -> lexed hd [c_bang] (Plaintext [c_bang]) r.
Proof.
  intros S. apply lexed_err. intros L R n last.
  assert (G : lex_images ([c_bang] ++ r) = Ret (LErr [c_bang] r)).
  { unfold lex_images. cbn [app next_if_eq]. change (ceq c_bang c_bang) with true. cbn iota.
    unfold lex_links. rewrite (starts_in_next _ _ r S) by (cbn; tauto). cbn [bind].
    change (c_bang :: r) with ([c_bang] ++ r). now rewrite substring_app. }
  cbn [app] in *. unfold dispatch. rewrite G. destruct hd; reflexivity.
Qed.
Definition is_dash (c : char) : bool := ceq c c_minus || ceq c c_plus.
Lemma is_dash_in c : is_dash c = true -> In c dashes.
Proof. unfold is_dash. intros H. apply orb_true_iff in H as [H|H]; apply ceq_eq in H; subst; cbn; auto. Qed.
Lemma dashes_forall s : incl s dashes -> forallb is_dash s = true.
Proof. intros H. apply forallb_forall. intros x I. apply H in I as [<-|[<-|[]]]; reflexivity. Qed.
Lemma disp_dash hd c r l : In c dashes -> (forall L, lex_plus_minus L (c :: r) = Ret l) -> disp hd c (c :: r) l.
Proof. intros [<-|[<-|[]]] H L R n last; destruct hd; apply H. Qed.
Lemma lex_dashes hd r a b : In a dashes -> In b dashes -> starts_in dashes r = false ->
  lexed hd [a; b] (Plaintext [a; b]) r.
Proof.
  intros A B S. apply lexed_err, disp_dash; [exact A|]. intros L. unfold lex_plus_minus, consume_while.
  change (a :: [b] ++ r) with ([a; b] ++ r). fold is_dash.
  destruct (run_take dashes [a; b] r is_dash) as [-> ->]; auto using is_dash_in.
  { apply dashes_forall. intros x [<-|[<-|[]]]; auto. }
  cbn [length]. now rewrite substring_app.
Qed.
Lemma lex_arrows hd r n : 1 <= n -> starts_in (c_gt :: blank_chars) r = false -> lexed hd (crep n c_gt) (Plaintext (crep n c_gt)) r.
Proof.
  intros Hn S. destruct (crep_cons n c_gt Hn) as (n' & E & EC). rewrite EC at 1.
  apply lexed_err. intros L R k last. rewrite app_comm_cons, <- EC.
  assert (G : lex_blockquotes (crep n c_gt ++ r) = LErr (crep n c_gt) r).
  { unfold lex_blockquotes, consume_while.
    destruct (run_take (c_gt :: blank_chars) (crep n c_gt) r (ceq c_gt)) as [-> ->]; auto.
    { apply crep_forall, ceq_refl. }
    { intros c I. apply ceq_eq in I. subst. now left. }
    rewrite !(starts_in_peek _ _ r S) by (cbn; tauto). reflexivity. }
  unfold dispatch. rewrite G. destruct hd; reflexivity.
Qed.
Lemma tilde_in c : ceq c_tilde c = true -> In c [c_tilde].
Proof. intros I. apply ceq_eq in I. subst. now left. Qed.
Lemma lex_tildes hd r n : 1 <= n -> n <> 2 -> starts_in [c_tilde] r = false -> lexed hd (crep n c_tilde) (Plaintext (crep n c_tilde)) r.
Proof.
  intros Hn N2 S. destruct (crep_cons n c_tilde Hn) as (n' & E & EC). rewrite EC at 1.
  apply lexed_err. intros L R k last. rewrite app_comm_cons, <- EC.
  assert (G : lex_tilde (crep n c_tilde ++ r) = LErr (crep n c_tilde) r).
  { unfold lex_tilde, consume_while.
    destruct (run_take [c_tilde] (crep n c_tilde) r (ceq c_tilde)) as [-> ->]; auto using tilde_in.
    { apply crep_forall, ceq_refl. }
    rewrite crep_length. destruct n as [|[|[|n]]]; try reflexivity. lia. }
  unfold dispatch. rewrite G. destruct hd; reflexivity.
Qed.
Lemma text_take f t r : forallb f t = true -> (r = [] \/ exists c r', r = c :: r' /\ f c = false) ->
  take_while f (t ++ r) = t /\ drop_while f (t ++ r) = r.
Proof.
  intros F H. rewrite take_while_app, drop_while_app by exact F.
  destruct H as [->|(c & r' & -> & E)]; cbn; rewrite ?E, app_nil_r; auto.
Qed.
Lemma not_in_forall (c : char) t : ~ In c t -> forallb (fun x => negb (ceq x c)) t = true.
Proof. intros N. apply forallb_forall. intros x I. apply negb_true_iff, ceq_neq. intros ->. auto. Qed.
Lemma head_neq t (c : char) : t <> [] -> ~ In c t -> starts_in [c] t = false.
Proof.
  intros NE N. destruct t as [|x t]; [easy|]. cbn. rewrite orb_false_r. apply ceq_neq. intros ->. apply N. now left.
Qed.
Lemma lex_tilde_text t n r : t <> [] -> ~ In c_tilde t -> starts_in [c_tilde] r = false -> (n = 0 -> r = []) ->
  lex_tilde (lit "~~" ++ t ++ crep n c_tilde ++ r) =
  if n =? 2 then LOk (Strikethrough t) r else LErr (lit "~~" ++ t ++ crep n c_tilde) r.
Proof.
  intros NE N S H0. unfold lex_tilde, consume_while.
  assert (S1 : starts_in [c_tilde] (t ++ crep n c_tilde ++ r) = false).
  { pose proof (head_neq t c_tilde NE N) as S1. now destruct t. }
  destruct (run_take [c_tilde] (lit "~~") (t ++ crep n c_tilde ++ r) (ceq c_tilde)) as [-> ->]; auto using tilde_in.
  change (length (lit "~~")) with 2. cbn iota.
  destruct (text_take (fun c => negb (ceq c c_tilde)) t (crep n c_tilde ++ r)) as [-> ->].
  { now apply not_in_forall. }
  { destruct n as [|n]; [left; now rewrite H0|]. right. exists c_tilde. eexists. split; [reflexivity|]. reflexivity. }
  destruct (run_take [c_tilde] (crep n c_tilde) r (ceq c_tilde)) as [-> ->]; auto using tilde_in.
  { apply crep_forall, ceq_refl. }
  rewrite crep_length, Nat.eqb_sym. destruct (n =? 2); [auto|].
  replace (lit "~~" ++ t ++ crep n c_tilde ++ r) with ((lit "~~" ++ t ++ crep n c_tilde) ++ r) by (now rewrite <- !app_assoc).
  now rewrite substring_app.
Qed.
Lemma disp_tilde hd r : disp hd c_tilde r (lex_tilde r).
Proof. intros L R n last. destruct hd; reflexivity. Qed.
Lemma lex_strike hd r t : t <> [] -> ~ In c_tilde t -> starts_in [c_tilde] r = false ->
  lexed hd (lit "~~" ++ t ++ lit "~~") (Strikethrough t) r.
Proof.
  intros NE N S. eapply lexed_okE; [reflexivity|]. intros L R n last.
  rewrite (disp_tilde hd _ L R n last). f_equal. rewrite <- !app_assoc.
  change (lit "~~" ++ r) with (crep 2 c_tilde ++ r). now rewrite lex_tilde_text.
Qed.
Lemma lex_no_strike hd r t n : t <> [] -> ~ In c_tilde t -> n <> 2 -> starts_in [c_tilde] r = false ->
  (n = 0 -> r = []) -> lexed hd (lit "~~" ++ t ++ crep n c_tilde) (Plaintext (lit "~~" ++ t ++ crep n c_tilde)) r.
Proof.
  intros NE N N2 S H0. eapply lexed_errE; [reflexivity|]. intros L R k last.
  rewrite (disp_tilde hd _ L R k last). f_equal. rewrite <- !app_assoc.
  rewrite lex_tilde_text by auto. apply Nat.eqb_neq in N2. now rewrite N2.
Qed.

(** Emphasis. *)
Definition aster (c : char) : bool := ceq c c_star || ceq c c_under || ceq c c_tab.
Lemma aster_in c : aster c = true -> In c (c_tab :: star_under).
Proof.
  unfold aster. intros H. apply orb_true_iff in H as [H|H]; [apply orb_true_iff in H as [H|H]|];
    apply ceq_eq in H; subst; cbn; auto.
Qed.
Lemma star_under_in c : is_star_under c = true <-> In c star_under.
Proof.
  unfold is_star_under. split.
  - intros H. apply orb_true_iff in H as [H|H]; apply ceq_eq in H; subst; cbn; auto.
  - intros [<-|[<-|[]]]; reflexivity.
Qed.
Lemma star_under_aster s : incl s star_under -> forallb aster s = true.
Proof. intros H. apply forallb_forall. intros x I. apply H in I as [<-|[<-|[]]]; reflexivity. Qed.
Lemma star_under_forall s : incl s star_under -> forallb is_star_under s = true.
Proof. intros H. apply forallb_forall. intros x I. apply star_under_in. auto. Qed.
Lemma no_star_forall t : (forall c, In c star_under -> ~ In c t) -> forallb (fun c => negb (is_star_under c)) t = true.
Proof.
  intros H. apply forallb_forall. intros x I. apply negb_true_iff.
  destruct (is_star_under x) eqn:E; [|auto]. apply star_under_in in E. exfalso. exact (H x E I).
Qed.
Lemma disp_star hd c r : In c star_under -> disp hd c r (lex_asterisk_underscore r).
Proof. intros [<-|[<-|[]]] L R n last; destruct hd; reflexivity. Qed.
Lemma starts_in_app cs t r : t <> [] -> starts_in cs (t ++ r) = starts_in cs t.
Proof. now destruct t. Qed.
Lemma starts_in_incl cs cs' r : incl cs' cs -> starts_in cs r = false -> starts_in cs' r = false.
Proof.
  intros I S. destruct r as [|c r]; [auto|]. cbn in *. destruct (mem_char c cs') eqn:E; [|auto].
  apply mem_char_iff, I, mem_char_iff in E. congruence.
Qed.
Lemma no_star_start t : t <> [] -> (forall c, In c star_under -> ~ In c t) -> starts_in star_under t = false.
Proof.
  intros NE H. destruct t as [|x t]; [easy|]. cbn [starts_in].
  destruct (mem_char x star_under) eqn:E; [|auto]. apply mem_char_iff in E. exfalso. apply (H x E). now left.
Qed.
Lemma starts_in_both cs cs' r : starts_in cs r = false -> starts_in cs' r = false -> starts_in (cs ++ cs') r = false.
Proof.
  destruct r as [|x r]; [auto|]. cbn. unfold mem_char. rewrite existsb_app. intros -> ->. reflexivity.
Qed.

Lemma lex_em_tok d t r : In d star_under -> t <> [] ->
  (forall c, In c star_under -> ~ In c t) -> starts_in [c_tab; c_sp; c_nl] t = false ->
  (r = [] \/ exists d' r', r = d' :: r' /\ In d' star_under) ->
  lex_asterisk_underscore (d :: t ++ r) = LOk (Italic t) (tl r).
Proof.
  intros D NE N S HR. unfold lex_asterisk_underscore, consume_while. fold aster.
  change (d :: t ++ r) with ([d] ++ t ++ r).
  assert (S1 : starts_in ([c_tab; c_sp; c_nl] ++ star_under) (t ++ r) = false).
  { rewrite starts_in_app by exact NE. apply starts_in_both; [exact S | now apply no_star_start]. }
  destruct (run_take ([c_tab; c_sp; c_nl] ++ star_under) [d] (t ++ r) aster) as [-> ->]; auto.
  { apply star_under_aster. intros x [<-|[]]. exact D. }
  { intros c I. apply aster_in in I. cbn in *. tauto. }
  cbn [length Nat.eqb]. rewrite (starts_in_next _ _ _ S1) by (cbn; tauto).
  rewrite (starts_in_peek _ _ _ S1) by (cbn; tauto). rewrite andb_false_r.
  destruct (text_take (fun c => negb (is_star_under c)) t r) as [-> ->].
  { now apply no_star_forall. }
  { destruct HR as [->|(d' & r' & -> & I)]; [auto|]. right. exists d', r'. split; [auto|].
    apply negb_false_iff. now apply star_under_in. }
  reflexivity.
Qed.
Lemma lex_em hd r d t d' : In d star_under -> In d' star_under -> t <> [] ->
  (forall c, In c star_under -> ~ In c t) -> starts_in [c_tab; c_sp; c_nl] t = false ->
  lexed hd (d :: t ++ [d']) (Italic t) r.
Proof.
  intros D D' NE N S. apply lexed_ok. intros L R n last. rewrite (disp_star hd d _ D L R n last). f_equal.
  rewrite <- app_assoc. rewrite lex_em_tok; auto. right. cbn. eauto.
Qed.
Lemma lex_em_open hd d t : In d star_under -> t <> [] ->
  (forall c, In c star_under -> ~ In c t) -> starts_in [c_tab; c_sp; c_nl] t = false ->
  lexed hd (d :: t) (Italic t) [].
Proof.
  intros D NE N S. apply lexed_ok. intros L R n last. rewrite (disp_star hd d _ D L R n last). f_equal.
  rewrite lex_em_tok; auto.
Qed.

Lemma lex_strong_tok n mk ds t ds' r : length ds = n -> incl (ds ++ ds') star_under ->
  (forall c, In c star_under -> ~ In c t) ->
  starts_in star_under r = false -> (ds' = [] -> r = []) ->
  lex_strong n mk (ds ++ t ++ ds' ++ r) (t ++ ds' ++ r) =
  if length ds' =? n then LOk (mk t) r else LErr (ds ++ t ++ ds') r.
Proof.
  intros Hn I N S H0. unfold lex_strong, consume_while.
  destruct (text_take (fun c => negb (is_star_under c)) t (ds' ++ r)) as [-> ->].
  { now apply no_star_forall. }
  { destruct ds' as [|d' ds']; [left; now rewrite H0|]. right. exists d', (ds' ++ r). split; [auto|].
    apply negb_false_iff, star_under_in, I. apply in_or_app. right. now left. }
  destruct (run_take star_under ds' r is_star_under) as [-> ->]; auto.
  { apply star_under_forall. intros x J. apply I, in_or_app. now right. }
  { intros c. now apply star_under_in. }
  destruct (length ds' =? n); [auto|].
  replace (ds ++ t ++ ds' ++ r) with ((ds ++ t ++ ds') ++ r) by (now rewrite <- !app_assoc). now rewrite substring_app.
Qed.
Lemma lex_stars ds t ds' r : length ds = 2 \/ length ds = 3 -> incl (ds ++ ds') star_under -> t <> [] ->
  (forall c, In c star_under -> ~ In c t) -> starts_in [c_tab; c_nl] t = false ->
  starts_in star_under r = false -> (ds' = [] -> r = []) ->
  lex_asterisk_underscore (ds ++ t ++ ds' ++ r) =
  if length ds' =? length ds then LOk ((if length ds =? 2 then Bold else BoldItalic) t) r else LErr (ds ++ t ++ ds') r.
Proof.
  intros Hn I NE N S1 S H0. unfold lex_asterisk_underscore, consume_while. fold aster.
  assert (S2 : starts_in ([c_tab; c_nl] ++ star_under) (t ++ ds' ++ r) = false).
  { rewrite starts_in_app by exact NE. apply starts_in_both; [exact S1 | now apply no_star_start]. }
  destruct (run_take ([c_tab; c_nl] ++ star_under) ds (t ++ ds' ++ r) aster) as [-> ->]; auto.
  { apply star_under_aster. intros x J. apply I, in_or_app. now left. }
  { intros c J. apply aster_in in J. cbn in *. tauto. }
  rewrite (starts_in_peek _ _ _ S2) by (cbn; tauto). rewrite andb_false_r.
  destruct Hn as [Hn|Hn]; rewrite Hn; cbn [Nat.eqb];
    rewrite lex_strong_tok; auto.
Qed.
Lemma stars_head (ds : str) : length ds = 2 \/ length ds = 3 -> exists d ds2, ds = d :: ds2.
Proof. destruct ds as [|d ds]; cbn; [lia|eauto]. Qed.
Lemma lex_strongs hd r ds t ds' : length ds = 2 \/ length ds = 3 -> incl (ds ++ ds') star_under -> t <> [] ->
  (forall c, In c star_under -> ~ In c t) -> starts_in [c_tab; c_nl] t = false ->
  starts_in star_under r = false -> (ds' = [] -> r = []) ->
  lexed hd (ds ++ t ++ ds')
    (if length ds' =? length ds then (if length ds =? 2 then Bold else BoldItalic) t else Plaintext (ds ++ t ++ ds')) r.
Proof.
  intros Hn I NE N S1 S H0. pose proof (lex_stars ds t ds' r Hn I NE N S1 S H0) as G.
  destruct (stars_head ds Hn) as (d & ds2 & E). assert (D : In d star_under).
  { apply I. rewrite E. now left. }
  destruct (length ds' =? length ds).
  - eapply (lexed_okE hd d); [rewrite E; reflexivity|]. intros L R n last. rewrite (disp_star hd d _ D L R n last).
    f_equal. rewrite <- !app_assoc. exact G.
  - eapply (lexed_errE hd d); [rewrite E; reflexivity|]. intros L R n last. rewrite (disp_star hd d _ D L R n last).
    f_equal. rewrite <- !app_assoc. exact G.
Qed.

(** Escapes. *)
Lemma disp_bslash hd r : disp hd c_bslash r (lex_escaped_character r).
Proof. intros L R n last; destruct hd; reflexivity. Qed.
Lemma lex_escape hd r c : c <> c_hash -> lexed hd [c_bslash; c] (Plaintext [c]) r.
Proof.
  intros N. apply lexed_ok. intros L R n last. rewrite (disp_bslash hd _ L R n last). cbn.
  apply ceq_neq in N. now rewrite N.
Qed.
Lemma hash_in c : ceq c_hash c = true -> In c [c_hash].
Proof. intros I. apply ceq_eq in I. subst. now left. Qed.
Lemma lex_escape_hashes hd r n : 1 <= n -> starts_in [c_hash] r = false ->
  lexed hd (c_bslash :: crep n c_hash) (Plaintext (crep n c_hash)) r.
Proof.
  intros Hn S. apply lexed_ok. intros L R k last. rewrite (disp_bslash hd _ L R k last).
  unfold lex_escaped_character, consume_while. cbn [next tl].
  destruct (run_take [c_hash] (crep n c_hash) r (ceq c_hash)) as [-> ->]; auto using hash_in.
  { apply crep_forall, ceq_refl. }
  destruct (crep_cons n c_hash Hn) as (n' & -> & ->). reflexivity.
Qed.

(** ** Link destinations *)
Lemma encoded_app a b : encoded (a ++ b) = encoded a ++ encoded b.
Proof. apply flat_map_app. Qed.
Lemma pct_one c : replace_char c_amp (lit "&amp;") (percent_encode [c]) = pct c.
Proof.
  unfold pct.
  repeat match goal with
  | |- _ = (if ceq c ?d then _ else _) =>
      let E := fresh "E" in destruct (ceq c d) eqn:E;
      [apply ceq_eq in E; subst c; reflexivity|]
  end.
  unfold percent_encode, replace_char. cbn [flat_map].
  repeat match goal with
  | H : ceq c ?d = false |- _ => rewrite H; cbn [flat_map app]; clear H
  end. reflexivity.
Qed.
Lemma encoded_percent s : replace_char c_amp (lit "&amp;") (percent_encode s) = encoded s.
Proof.
  induction s as [|c s IH]; [reflexivity|]. change (c :: s) with ([c] ++ s).
  rewrite percent_app, replace_char_app, IH, pct_one. reflexivity.
Qed.
Lemma url_char_ascii u : forallb url_char u = true -> is_ascii u = true /\ existsb is_whitespace u = false.
Proof.
  intros H. split.
  - apply forallb_forall. intros x I. eapply forallb_forall in H; eauto. now apply andb_true_iff in H as [H _].
  - destruct (existsb is_whitespace u) eqn:E; [|auto]. apply existsb_exists in E as (x & I & W).
    eapply forallb_forall in H; eauto. apply andb_true_iff in H as [_ H]. rewrite W in H. discriminate H.
Qed.
Lemma scheme_letters_eq : scheme_letters = commonmark_scheme_ascii. Proof. reflexivity. Qed.
Lemma scheme_letters_fine a : forallb (fun c => mem_char c scheme_letters) a = true ->
  forallb url_char a = true /\ ~ In c_colon a /\ ~ In c_at a /\ ~ In c_rpar a /\ ~ In c_sp a /\ ~ In c_gt a.
Proof.
  intros H. assert (A : forall x, In x a -> In x scheme_letters).
  { intros x I. apply mem_char_iff. exact (proj1 (forallb_forall _ _) H x I). }
  assert (B : forallb url_char scheme_letters = true) by (vm_compute; reflexivity).
  split; [|repeat split; intros I; apply A, mem_char_iff in I; vm_compute in I; discriminate I].
  apply forallb_forall. intros x I. exact (proj1 (forallb_forall _ _) B x (A x I)).
Qed.
Lemma count_one c s : count_matches [c] s = length (filter (ceq c) s).
Proof.
  unfold count_matches. induction s as [|x s IH]; [reflexivity|]. cbn [count_go starts_with filter length Nat.sub].
  rewrite andb_true_r. destruct (ceq c x); cbn [length]; now rewrite IH.
Qed.
Lemma filter_none (c : char) s : ~ In c s -> filter (ceq c) s = [].
Proof.
  induction s as [|x s IH]; intros N; [reflexivity|]. cbn.
  assert (E : ceq c x = false) by (apply ceq_neq; intros ->; apply N; now left). rewrite E. apply IH.
  intros I. apply N. now right.
Qed.
Lemma validate_abs a b : good_scheme a -> forallb url_char b = true -> ~ In c_at b ->
  (to_lowercase a = lit "data" -> exists y, b = lit "image/" ++ y) ->
  exists s, validate_link (a ++ [c_colon] ++ b) = inl (mkUrl b (Some s)) /\ fmt_scheme s = a /\
    (forall x, s = SEmail x -> a = lit "mailto") /\ (a = lit "mailto" -> s = SEmail a).
Proof.
  intros (GS & GL & GJ) U NA D. destruct (scheme_letters_fine a GS) as (UA & NC & NAa & _).
  assert (UU : forallb url_char (a ++ [c_colon] ++ b) = true).
  { rewrite !forallb_app, UA, U. reflexivity. }
  destruct (url_char_ascii _ UU) as [IA IW]. unfold validate_link. rewrite IA, IW. cbn [negb orb].
  unfold split_scheme. change (a ++ [c_colon] ++ b) with (a ++ c_colon :: b). rewrite split_once_app by exact NC.
  assert (E1 : str_eqb (to_lowercase a) (lit "javascript") = false).
  { destruct (str_eqb _ _) eqn:E; [|auto]. apply str_eqb_eq in E. easy. }
  assert (E2 : is_ascii a = true) by (now apply url_char_ascii).
  rewrite E1, E2. cbn [negb orb].
  assert (E3 : str_eqb (to_lowercase a) (lit "data") && negb (starts_with (lit ":image/") (c_colon :: b)) = false).
  { destruct (str_eqb (to_lowercase a) (lit "data")) eqn:E; [|auto]. apply str_eqb_eq in E. destruct (D E) as [y ->]. reflexivity. }
  rewrite E3.
  assert (E4 : negb (length a =? 0) && ((length a <? 2) || (32 <? length a)) = false).
  { apply andb_false_intro2, orb_false_intro; apply Nat.ltb_ge; lia. }
  rewrite E4. cbn zeta.
  assert (E5 : contains_char c_at (a ++ c_colon :: b) = false).
  { apply contains_char_false. intros I. apply in_app_iff in I as [I|[I|I]]; [auto|discriminate I|auto]. }
  rewrite E5. cbn [andb].
  unfold source_scheme. rewrite first_part_app by exact NC.
  assert (E6 : contains_char c_colon (a ++ c_colon :: b) = true).
  { apply contains_char_iff, in_or_app. right. now left. }
  rewrite E6. rewrite <- scheme_letters_eq, GS. cbn [andb].
  assert (E7 : (2 <=? length a) = true) by (apply Nat.leb_le; lia).
  assert (E8 : (length a <=? 32) = true) by (apply Nat.leb_le; lia). rewrite E7, E8. cbn [andb].
  destruct (str_eqb a (lit "http")) eqn:H1.
  { apply str_eqb_eq in H1. rewrite strip_scheme_app. eexists. split; [reflexivity|]. cbn. rewrite H1. repeat split; easy. }
  destruct (str_eqb a (lit "mailto")) eqn:H2.
  { apply str_eqb_eq in H2. rewrite strip_scheme_app. eexists. split; [reflexivity|]. cbn. repeat split; auto. }
  assert (NM : a <> lit "mailto"). { intros ->. discriminate H2. }
  destruct (str_eqb a (lit "irc")); rewrite strip_scheme_app; (eexists; split; [reflexivity|]; cbn; repeat split; easy).
Qed.
Lemma validate_mail a b : forallb url_char (a ++ b) = true ->
  ~ In c_at (a ++ b) -> ~ In c_colon (a ++ b) -> ~ In c_bslash (a ++ b) ->
  validate_link (a ++ [c_at] ++ b) = inl (mkUrl (a ++ [c_at] ++ b) (Some (SEmail (lit "mailto")))).
Proof.
  intros U NA NC NB. set (u := a ++ [c_at] ++ b).
  assert (IN : forall x, In x u -> x = c_at \/ In x (a ++ b)).
  { subst u. intros x. rewrite !in_app_iff. cbn. intuition. }
  assert (UU : forallb url_char u = true).
  { apply forallb_forall. intros x I. apply IN in I as [->|I]; [reflexivity|]. exact (proj1 (forallb_forall _ _) U x I). }
  destruct (url_char_ascii _ UU) as [IA IW]. unfold validate_link. rewrite IA, IW. cbn [negb orb].
  assert (NCu : ~ In c_colon u). { intros I. apply IN in I as [I|I]; [discriminate I|auto]. }
  unfold split_scheme. apply split_once_none in NCu as E. rewrite E. clear E. cbn [to_lowercase map str_eqb lit length Nat.eqb negb andb orb].
  change (is_ascii []) with true. cbn [negb orb andb]. rewrite source_scheme_no_colon by exact NCu. cbn zeta.
  assert (E5 : contains_char c_at u = true). { apply contains_char_iff. subst u. apply in_or_app. right. now left. }
  assert (E6 : count_matches [c_at] u = 1).
  { rewrite count_one. subst u. rewrite !filter_app. rewrite (filter_none _ a), (filter_none _ b); [reflexivity|..]; intros I; apply NA, in_or_app; auto. }
  assert (E7 : contains_char c_bslash u = false).
  { apply contains_char_false. intros I. apply IN in I as [I|I]; [discriminate I|auto]. }
  rewrite E5, E6, E7. reflexivity.
Qed.
Lemma validate_rel u : schemeless u -> validate_link u = inl (mkUrl u None).
Proof.
  intros (U & NA & NC). destruct (url_char_ascii _ U) as [IA IW]. unfold validate_link. rewrite IA, IW. cbn [negb orb].
  unfold split_scheme. apply split_once_none in NC as E. rewrite E. clear E. cbn [to_lowercase map str_eqb lit length Nat.eqb negb andb orb].
  change (is_ascii []) with true. cbn [negb orb andb]. rewrite source_scheme_no_colon by exact NC. cbn zeta.
  apply contains_char_false in NA. now rewrite NA.
Qed.
Lemma dest_valid u href t : dest u href t -> exists v s, validate_link u = inl v /\ url_scheme v = Some s /\
  fmt_url v = href /\ fmt_unsafe v = t.
Proof.
  intros [a b GS U NA D|a b U NA NC NB].
  - destruct (validate_abs a b GS U NA D) as (s & V & F & M1 & M2). exists (mkUrl b (Some s)), s. split; [exact V|]. split; [auto|].
    unfold fmt_url, fmt_unsafe. cbn [url_scheme url_content]. cbn zeta. rewrite encoded_percent, F. split; [auto|].
    destruct (str_eqb a (lit "mailto")) eqn:E.
    + apply str_eqb_eq in E. rewrite (M2 E). reflexivity.
    + destruct s as [x|x|x|x]; try (cbn in F; subst x; reflexivity).
      rewrite (M1 x eq_refl) in E. discriminate E.
  - exists (mkUrl (a ++ [c_at] ++ b) (Some (SEmail (lit "mailto")))), (SEmail (lit "mailto")). split; [now apply validate_mail|].
    split; [auto|]. unfold fmt_url, fmt_unsafe. cbn [url_scheme url_content]. cbn zeta. rewrite encoded_percent. auto.
Qed.
Lemma href_valid u href : href_of u href -> exists v, validate_link u = inl v /\ fmt_url v = href.
Proof.
  intros [u' h t D|u' S].
  - destruct (dest_valid _ _ _ D) as (v & s & V & _ & F & _). eauto.
  - exists (mkUrl u' None). split; [now apply validate_rel|]. unfold fmt_url. cbn [url_scheme url_content]. cbn zeta.
    now rewrite encoded_percent.
Qed.
Lemma src_valid u src : src_of u src -> exists v, validate_link u = inl v /\ url_content v = src.
Proof.
  intros [a b GS U NA D|a b U NA NC NB|u' S].
  - destruct (validate_abs a b GS U NA D) as (s & V & _). eexists. split; [exact V | reflexivity].
  - eexists. split; [now apply validate_mail | reflexivity].
  - eexists. split; [now apply validate_rel | reflexivity].
Qed.
Lemma dest_chars u href t : dest u href t -> forallb url_char u = true.
Proof.
  intros [a b (GS & _) U NA D|a b U NA NC NB].
  - rewrite !forallb_app, U. destruct (scheme_letters_fine a GS) as (-> & _). reflexivity.
  - rewrite forallb_app in *. cbn [app forallb]. apply andb_true_iff in U as [-> ->]. reflexivity.
Qed.
Lemma href_chars u href : href_of u href -> forallb url_char u = true.
Proof. intros [u' h t D|u' (S & _)]; [eapply dest_chars; eauto | exact S]. Qed.
Lemma src_chars u src : src_of u src -> forallb url_char u = true /\ forallb url_char src = true.
Proof.
  intros [a b (GS & _) U NA D|a b U NA NC NB|u' (S & _)].
  - split; [|exact U]. rewrite !forallb_app, U. destruct (scheme_letters_fine a GS) as (-> & _). reflexivity.
  - rewrite forallb_app in U. apply andb_true_iff in U as [U1 U2].
    rewrite forallb_app. cbn [app forallb]. now rewrite U1, U2.
  - auto.
Qed.
Lemma url_char_no_sp u : forallb url_char u = true -> ~ In c_sp u.
Proof. intros H I. eapply forallb_forall in H; eauto. discriminate H. Qed.
Lemma rejected_valid u : rejected u -> validate_link u = inr u.
Proof.
  unfold validate_link. intros [u' H|a b J NC|a b J NC NI].
  - destruct (negb (is_ascii u') || existsb is_whitespace u') eqn:E; [auto|exfalso].
    apply orb_false_iff in E as [E1 E2]. apply negb_false_iff in E1.
    assert (forallb url_char u' = true); [|congruence]. apply forallb_forall. intros x I. unfold url_char.
    unfold is_ascii in E1. apply (proj1 (forallb_forall _ _) E1) in I as L. rewrite L. cbn [andb].
    apply negb_true_iff. destruct (is_whitespace x) eqn:W; [|auto].
    assert (existsb is_whitespace u' = true) by (apply existsb_exists; eauto). congruence.
  - destruct (negb _ || _); [auto|]. unfold split_scheme. change (a ++ [c_colon] ++ b) with (a ++ c_colon :: b).
    rewrite split_once_app by exact NC. rewrite J, str_eqb_refl. reflexivity.
  - destruct (negb _ || _); [auto|]. unfold split_scheme. change (a ++ [c_colon] ++ b) with (a ++ c_colon :: b).
    rewrite split_once_app by exact NC. rewrite J, str_eqb_refl.
    assert (E : str_eqb (lit "data") (lit "javascript") = false) by reflexivity. rewrite E.
    destruct (negb (is_ascii a)); [reflexivity|]. cbn [orb andb].
    destruct (starts_with (lit ":image/") (c_colon :: b)) eqn:S; [exfalso|reflexivity].
    apply NI. apply starts_with_iff in S as [y S]. exists y. cbn in S. injection S as S. exact S.
Qed.

(** ** Brackets *)
Lemma disp_lbrk hd r l : lex_links r = Ret l -> disp hd c_lbrk r l.
Proof. intros H L R n last; destruct hd; exact H. Qed.
Lemma links_title t r : ~ In c_rbrk t ->
  lex_links (lit "[" ++ t ++ r) =
  match next_if_eq c_rbrk (drop_while (fun c => negb (ceq c c_rbrk)) r) with
  | None => Ret (LErr (substring_from (lit "[" ++ t ++ r) (drop_while (fun c => negb (ceq c c_rbrk)) r))
                  (drop_while (fun c => negb (ceq c c_rbrk)) r))
  | Some r3 =>
      match (if starts_with [c_caret] (t ++ take_while (fun c => negb (ceq c c_rbrk)) r) then next_if_eq c_colon r3 else None) with
      | Some r4 => lex_footnote (t ++ take_while (fun c => negb (ceq c c_rbrk)) r) (lit "[" ++ t ++ r) r4
      | None =>
          match next_if_eq c_lpar r3 with
          | None => Ret (LErr (substring_from (lit "[" ++ t ++ r) r3) r3)
          | Some r4 => Ret (lex_link_dest (t ++ take_while (fun c => negb (ceq c c_rbrk)) r) (lit "[" ++ t ++ r) r4)
          end
      end
  end.
Proof.
  intros N. unfold lex_links, consume_while. change (next_if_eq c_lbrk (lit "[" ++ t ++ r)) with (Some (t ++ r)). cbn iota.
  rewrite take_while_app, drop_while_app by (now apply not_in_forall). reflexivity.
Qed.
Lemma links_closed t r : ~ In c_rbrk t ->
  lex_links (lit "[" ++ t ++ lit "]" ++ r) =
  match (if starts_with [c_caret] t then next_if_eq c_colon r else None) with
  | Some r4 => lex_footnote t (lit "[" ++ t ++ lit "]" ++ r) r4
  | None =>
      match next_if_eq c_lpar r with
      | None => Ret (LErr (lit "[" ++ t ++ lit "]") r)
      | Some r4 => Ret (lex_link_dest t (lit "[" ++ t ++ lit "]" ++ r) r4)
      end
  end.
Proof.
  intros N. rewrite links_title by exact N.
  change (drop_while (fun c => negb (ceq c c_rbrk)) (lit "]" ++ r)) with (lit "]" ++ r).
  change (take_while (fun c => negb (ceq c c_rbrk)) (lit "]" ++ r)) with (@nil char).
  change (next_if_eq c_rbrk (lit "]" ++ r)) with (Some r). cbn iota. rewrite app_nil_r.
  assert (SB : substring_from (lit "[" ++ t ++ lit "]" ++ r) r = lit "[" ++ t ++ lit "]").
  { replace (lit "[" ++ t ++ lit "]" ++ r) with ((lit "[" ++ t ++ lit "]") ++ r) by (now rewrite <- !app_assoc).
    apply substring_app. }
  now rewrite SB.
Qed.
Lemma url_take u r : ~ In c_rpar u -> ~ In c_sp u ->
  take_while (fun c => negb (ceq c c_rpar) && negb (ceq c c_sp)) (u ++ r)
  = u ++ take_while (fun c => negb (ceq c c_rpar) && negb (ceq c c_sp)) r /\
  drop_while (fun c => negb (ceq c c_rpar) && negb (ceq c c_sp)) (u ++ r)
  = drop_while (fun c => negb (ceq c c_rpar) && negb (ceq c c_sp)) r.
Proof.
  intros N1 N2.
  assert (F : forallb (fun c => negb (ceq c c_rpar) && negb (ceq c c_sp)) u = true).
  { apply forallb_forall. intros x I. apply andb_true_iff. split; apply negb_true_iff, ceq_neq; intros ->; auto. }
  now rewrite take_while_app, drop_while_app by exact F.
Qed.
Lemma link_dest_plain t r0 u r : ~ In c_rpar u -> ~ In c_sp u ->
  lex_link_dest t r0 (u ++ lit ")" ++ r) =
  match validate_link u with inl vl => LOk (Link vl (Some t) None) r | inr e => LErr e r end.
Proof.
  intros N1 N2. unfold lex_link_dest, consume_while.
  destruct (url_take u (lit ")" ++ r) N1 N2) as [-> ->].
  change (take_while (fun c => negb (ceq c c_rpar) && negb (ceq c c_sp)) (lit ")" ++ r)) with (@nil char).
  change (drop_while (fun c => negb (ceq c c_rpar) && negb (ceq c c_sp)) (lit ")" ++ r)) with (lit ")" ++ r).
  rewrite app_nil_r. reflexivity.
Qed.
Lemma link_dest_title t r0 u title rest r : ~ In c_rpar u -> ~ In c_sp u -> ~ In c_rpar title -> ~ In c_nl rest ->
  lex_link_dest t r0 (u ++ lit " " ++ title ++ lit ")" ++ rest ++ c_nl :: r) =
  match validate_link u with inl vl => LOk (Link vl (Some t) (Some (lit " " ++ title))) r | inr e => LErr e r end.
Proof.
  intros N1 N2 N3 N4. unfold lex_link_dest, consume_while.
  set (z := lit ")" ++ rest ++ c_nl :: r).
  destruct (url_take u (lit " " ++ title ++ z) N1 N2) as [-> ->].
  change (take_while (fun c => negb (ceq c c_rpar) && negb (ceq c c_sp)) (lit " " ++ title ++ z)) with (@nil char).
  change (drop_while (fun c => negb (ceq c c_rpar) && negb (ceq c c_sp)) (lit " " ++ title ++ z)) with (lit " " ++ title ++ z).
  rewrite app_nil_r. change (next_if_eq c_rpar (lit " " ++ title ++ z)) with (@None cursor).
  change (lit " " ++ title ++ z) with (c_sp :: title ++ z) at 1. cbn iota.
  change (lit " " ++ title ++ z) with ((lit " " ++ title) ++ z).
  destruct (text_take (fun c => negb (ceq c c_rpar)) (lit " " ++ title) z) as [-> ->].
  { apply not_in_forall. intros [I|I]; [discriminate I|auto]. }
  { right. exists c_rpar. eexists. split; reflexivity. }
  unfold skip_while. replace (drop_while not_nl z) with (c_nl :: r).
  2:{ unfold z. rewrite app_assoc. symmetry. rewrite drop_while_app; [reflexivity|].
      apply not_in_forall. intros I. apply in_app_iff in I as [[I|[]]|I]; [discriminate I|auto]. }
  reflexivity.
Qed.
Lemma link_start t u : exists s1, lit "[" ++ t ++ u = c_lbrk :: s1.
Proof. eexists. reflexivity. Qed.

Lemma links_inline t u r : ~ In c_rbrk t -> ~ In c_rpar u -> ~ In c_sp u ->
  lex_links (lit "[" ++ t ++ lit "](" ++ u ++ lit ")" ++ r) =
  Ret match validate_link u with inl vl => LOk (Link vl (Some t) None) r | inr e => LErr e r end.
Proof.
  intros N1 N2 N3. change (lit "](" ++ u ++ lit ")" ++ r) with (lit "]" ++ lit "(" ++ u ++ lit ")" ++ r).
  rewrite links_closed by exact N1.
  change (next_if_eq c_colon (lit "(" ++ u ++ lit ")" ++ r)) with (@None cursor).
  change (next_if_eq c_lpar (lit "(" ++ u ++ lit ")" ++ r)) with (Some (u ++ lit ")" ++ r)).
  destruct (starts_with _ _); now rewrite link_dest_plain by auto.
Qed.
Lemma links_titled t u title rest r : ~ In c_rbrk t -> ~ In c_rpar u -> ~ In c_sp u -> ~ In c_rpar title -> ~ In c_nl rest ->
  lex_links (lit "[" ++ t ++ lit "](" ++ u ++ lit " " ++ title ++ lit ")" ++ rest ++ c_nl :: r) =
  Ret match validate_link u with inl vl => LOk (Link vl (Some t) (Some (lit " " ++ title))) r | inr e => LErr e r end.
Proof.
  intros N1 N2 N3 N4 N5. set (z := u ++ lit " " ++ title ++ lit ")" ++ rest ++ c_nl :: r).
  change (lit "](" ++ z) with (lit "]" ++ lit "(" ++ z).
  rewrite links_closed by exact N1.
  change (next_if_eq c_colon (lit "(" ++ z)) with (@None cursor).
  change (next_if_eq c_lpar (lit "(" ++ z)) with (Some z). unfold z.
  destruct (starts_with _ _); now rewrite link_dest_title by auto.
Qed.

Lemma lex_link_token hd r t u href : ~ In c_rbrk t -> ~ In c_rpar u -> href_of u href ->
  exists v, tok_out (Link v (Some t) None) = Some (true, a_tag href (escaped t)) /\
    lexed hd (lit "[" ++ t ++ lit "](" ++ u ++ lit ")") (Link v (Some t) None) r.
Proof.
  intros N1 N2 H. pose proof (url_char_no_sp _ (href_chars _ _ H)) as N3.
  destruct (href_valid _ _ H) as (v & V & F). exists v. split.
  - cbn [tok_out link_html]. now rewrite F, escaped_sanitize.
  - eapply (lexed_okE hd c_lbrk); [reflexivity|]. apply disp_lbrk. rewrite <- !app_assoc.
    rewrite links_inline by auto. now rewrite V.
Qed.
Lemma lex_link hd r t u href : ~ In c_rbrk t -> ~ In c_rpar u -> href_of u href ->
  exists tok, tok_out tok = Some (true, a_tag href (escaped t)) /\
    lexed hd (lit "[" ++ t ++ lit "](" ++ u ++ lit ")") tok r.
Proof. intros N1 N2 H. destruct (lex_link_token hd r t u href N1 N2 H) as (v & H1 & H2). eauto. Qed.
Lemma lex_link_rejected hd r t u : ~ In c_rbrk t -> ~ In c_rpar u -> ~ In c_sp u -> rejected u ->
  lexed hd (lit "[" ++ t ++ lit "](" ++ u ++ lit ")") (Plaintext u) r.
Proof.
  intros N1 N2 N3 H. eapply (lexed_errE hd c_lbrk); [reflexivity|]. apply disp_lbrk. rewrite <- !app_assoc.
  rewrite links_inline by auto. now rewrite rejected_valid.
Qed.
Lemma lex_link_title hd r t u title rest href : ~ In c_rbrk t -> ~ In c_rpar u -> href_of u href ->
  ~ In c_rpar title -> ~ In c_nl rest ->
  exists tok, tok_out tok = Some (true, a_title_tag href (lit " " ++ title) (escaped t)) /\
    lexed hd (lit "[" ++ t ++ lit "](" ++ u ++ lit " " ++ title ++ lit ")" ++ rest ++ [c_nl]) tok r.
Proof.
  intros N1 N2 H N4 N5. pose proof (url_char_no_sp _ (href_chars _ _ H)) as N3.
  destruct (href_valid _ _ H) as (v & V & F). exists (Link v (Some t) (Some (lit " " ++ title))). split.
  - cbn [tok_out link_html]. now rewrite F, escaped_sanitize.
  - eapply (lexed_okE hd c_lbrk); [reflexivity|]. apply disp_lbrk. rewrite <- !app_assoc. change ([c_nl] ++ r) with (c_nl :: r).
    rewrite links_titled by auto. now rewrite V.
Qed.
Lemma trim_no_ws u : existsb is_whitespace u = false -> trim u = u.
Proof.
  intros H.
  assert (G : forall v, (forall x, In x v -> is_whitespace x = false) -> drop_while is_whitespace v = v).
  { intros [|x v] K; [auto|]. cbn. now rewrite (K x (or_introl eq_refl)). }
  assert (K : forall x, In x u -> is_whitespace x = false).
  { intros x I. destruct (is_whitespace x) eqn:E; [|auto]. assert (existsb is_whitespace u = true) by (apply existsb_exists; eauto). congruence. }
  unfold trim, trim_end, trim_end_by, trim_start_by. rewrite (G u K), (G (rev u)), rev_involutive; auto.
  intros x I. apply K. now apply in_rev.
Qed.
Lemma lex_image hd r t u src : ~ In c_rbrk t -> ~ In c_rpar u -> src_of u src ->
  exists tok, tok_out tok = Some (false, if is_empty src then img_empty_tag t else img_tag src t) /\
    lexed hd (lit "![" ++ t ++ lit "](" ++ u ++ lit ")") tok r.
Proof.
  intros N1 N2 H. destruct (src_chars _ _ H) as [CU CS]. pose proof (url_char_no_sp _ CU) as N3.
  destruct (src_valid _ _ H) as (v & V & F). exists (Image src (Some t)). split.
  - cbn [tok_out]. unfold image_html. rewrite trim_no_ws by (now apply url_char_ascii). unfold img_empty_tag, img_tag.
    rewrite escaped_sanitize. now destruct (is_empty src).
  - eapply (lexed_okE hd c_bang); [reflexivity|]. intros L R n last.
    assert (G : lex_images ((lit "![" ++ t ++ lit "](" ++ u ++ lit ")") ++ r) = Ret (LOk (Image src (Some t)) r)).
    { unfold lex_images. change ((lit "![" ++ t ++ lit "](" ++ u ++ lit ")") ++ r)
        with (c_bang :: (lit "[" ++ t ++ lit "](" ++ u ++ lit ")") ++ r).
      unfold next_if_eq. change (ceq c_bang c_bang) with true. cbn iota. rewrite <- !app_assoc.
      rewrite links_inline by auto. rewrite V. cbn [bind]. now rewrite F. }
    unfold dispatch. rewrite G. destruct hd; reflexivity.
Qed.
Lemma lex_brackets hd r t : ~ In c_rbrk t -> starts_in [c_caret] t = false -> starts_in [c_lpar] r = false ->
  lexed hd (lit "[" ++ t ++ lit "]") (Plaintext (lit "[" ++ t ++ lit "]")) r.
Proof.
  intros N S1 S2. eapply (lexed_errE hd c_lbrk); [reflexivity|]. apply disp_lbrk. rewrite <- !app_assoc.
  rewrite links_closed by exact N. rewrite (starts_in_next c_lpar _ r S2) by (cbn; tauto).
  assert (E : starts_with [c_caret] t = false).
  { destruct t as [|x t]; [auto|]. cbn [starts_with]. rewrite andb_true_r. rewrite ceq_sym.
    eapply not_in_ceq; [eapply starts_in_false; [exact S1|reflexivity] | now left]. }
  now rewrite E.
Qed.
Lemma lex_bracket_open hd t : ~ In c_rbrk t -> lexed hd (lit "[" ++ t) (Plaintext (lit "[" ++ t)) [].
Proof.
  intros N. eapply (lexed_errE hd c_lbrk); [reflexivity|]. apply disp_lbrk. rewrite <- app_assoc.
  rewrite links_title by exact N. cbn [drop_while next_if_eq]. rewrite substring_all. rewrite app_nil_r. reflexivity.
Qed.
Lemma lex_noteref hd r i : ~ In c_rbrk i -> starts_in [c_colon; c_lpar] r = false ->
  lexed hd (lit "[^" ++ i ++ lit "]") (Plaintext (lit "[^" ++ i ++ lit "]")) r.
Proof.
  intros N S. eapply (lexed_errE hd c_lbrk); [reflexivity|]. apply disp_lbrk.
  change (lit "[^" ++ i ++ lit "]") with (lit "[" ++ (lit "^" ++ i) ++ lit "]"). rewrite <- !app_assoc.
  replace (lit "[" ++ lit "^" ++ i ++ lit "]" ++ r) with (lit "[" ++ (lit "^" ++ i) ++ lit "]" ++ r) by (now rewrite <- !app_assoc).
  rewrite links_closed by (intros [I|I]; [discriminate I|auto]).
  rewrite !(starts_in_next _ _ r S) by (cbn; tauto). destruct (starts_with _ _); now rewrite <- ?app_assoc.
Qed.
Lemma infix_snoc a b c s : infix [a; b] (s ++ [c]) -> b <> c -> infix [a; b] s.
Proof.
  intros (x & y & K) N. destruct y as [|y0 y] using rev_ind.
  - rewrite app_nil_r in K. change [a; b] with ([a] ++ [b]) in K. rewrite app_assoc in K.
    apply app_inj_tail in K as [_ K]. congruence.
  - rewrite !app_assoc in K. apply app_inj_tail in K as [K _]. exists x, y. rewrite K. now rewrite <- app_assoc.
Qed.
Lemma trim_end_snoc t x : is_whitespace x = false -> trim_end (t ++ [x]) = t ++ [x].
Proof.
  intros W. unfold trim_end, trim_end_by. rewrite rev_app_distr. cbn [rev app drop_while]. rewrite W.
  cbn [rev]. now rewrite rev_involutive.
Qed.
Lemma out_noteref i : ~ In c_rbrk i -> ~ infix (lit "[^") i ->
  tok_out (Plaintext (lit "[^" ++ i ++ lit "]")) = Some (true, noteref_tag i).
Proof.
  intros N1 N2. cbn [tok_out].
  assert (B : is_blank (lit "[^" ++ i ++ lit "]") = false) by (now apply is_blank_cons). rewrite B.
  do 2 f_equal. unfold plaintext_html.
  assert (E : lit "[^" ++ i ++ lit "]" = (lit "[^" ++ i) ++ [c_rbrk]) by (now rewrite <- app_assoc).
  rewrite E, drop_blank_tail_id by reflexivity. rewrite <- E.
  assert (C1 : contains [c_lbrk; c_caret] (lit "[^" ++ i ++ lit "]") = true).
  { apply contains_iff. exists [], (i ++ lit "]"). reflexivity. }
  assert (C2 : contains [c_rbrk] (lit "[^" ++ i ++ lit "]") = true).
  { apply contains_iff. exists (lit "[^" ++ i), []. now rewrite <- !app_assoc. }
  rewrite C1, C2. cbn [andb].
  assert (SP : split [c_lbrk; c_caret] (lit "[^" ++ i ++ lit "]") = [[]; i ++ lit "]"]).
  { unfold split. change (lit "[^" ++ i ++ lit "]") with ([] ++ c_lbrk :: c_caret :: i ++ lit "]").
    rewrite split_go_first; [|discriminate|intros (x & y & K); destruct x; discriminate K].
    cbn [rev app]. f_equal. unfold split. rewrite split_none; [reflexivity|].
    intros K. apply N2. eapply infix_snoc; [exact K | discriminate]. }
  rewrite SP. cbn [footnote_pieces]. change (ends_with [c_rbrk] (trim_end [])) with false. cbn iota.
  change (lit "]") with [c_rbrk]. rewrite trim_end_snoc by reflexivity. rewrite ends_with_app. cbn iota.
  unfold trim_end_by. rewrite rev_app_distr. cbn [rev app drop_while]. change (ceq c_rbrk c_rbrk) with true. cbn iota.
  assert (D : drop_while (ceq c_rbrk) (rev i) = rev i).
  { destruct (rev i) as [|x l] eqn:RI; [auto|]. cbn [drop_while]. assert (X : ceq c_rbrk x = false).
    { apply ceq_neq. intros <-. apply N1. apply in_rev. rewrite RI. now left. } now rewrite X. }
  rewrite D, rev_involutive, app_nil_r. unfold footnote_ref, noteref_tag. rewrite !escaped_sanitize. reflexivity.
Qed.

(** ** Angle brackets *)
Lemma disp_lt hd r l : (forall L n, lex_side_carrot L n r = Ret l) -> disp hd c_lt r l.
Proof. intros H L R n last; destruct hd; apply H. Qed.
Lemma side_carrot L n t r : ~ In c_gt t -> t <> lit "details" ->
  lex_side_carrot L n (lit "<" ++ t ++ lit ">" ++ r) =
  match t with
  | [] => Ret (LErr (lit "<>") r)
  | _ => if existsb is_whitespace t then Ret (LErr (lit "<" ++ t ++ lit ">") r)
         else match validate_link t with
              | inl (mkUrl c (Some sch)) => Ret (LOk (Link (mkUrl c (Some sch)) None None) r)
              | _ => Ret (LErr (lit "<" ++ t ++ lit ">") r)
              end
  end.
Proof.
  intros N ND. unfold lex_side_carrot, consume_while.
  change (next_if_eq c_lt (lit "<" ++ t ++ lit ">" ++ r)) with (Some (t ++ lit ">" ++ r)). cbn iota.
  destruct (text_take (fun c => negb (ceq c c_gt)) t (lit ">" ++ r)) as [-> ->].
  { now apply not_in_forall. }
  { right. exists c_gt. eexists. split; reflexivity. }
  change (next_if_eq c_gt (lit ">" ++ r)) with (Some r). cbn iota.
  assert (E : str_eqb t (lit "details") = false).
  { destruct (str_eqb t (lit "details")) eqn:E; [|auto]. apply str_eqb_eq in E. easy. }
  rewrite E.
  assert (SB : substring_from (lit "<" ++ t ++ lit ">" ++ r) r = lit "<" ++ t ++ lit ">").
  { replace (lit "<" ++ t ++ lit ">" ++ r) with ((lit "<" ++ t ++ lit ">") ++ r) by (now rewrite <- !app_assoc).
    apply substring_app. }
  now rewrite SB.
Qed.
Lemma lex_auto_token hd r u href t : dest u href t -> ~ In c_gt u ->
  exists v, tok_out (Link v None None) = Some (true, a_tag href t) /\
    lexed hd (lit "<" ++ u ++ lit ">") (Link v None None) r.
Proof.
  intros D N. pose proof (dest_chars _ _ _ D) as CU. apply url_char_ascii in CU as [_ CU].
  destruct (dest_valid _ _ _ D) as (v & s & V & S & F1 & F2). exists v. split.
  - cbn [tok_out link_html]. now rewrite F1, F2.
  - eapply (lexed_okE hd c_lt); [reflexivity|]. apply disp_lt. intros L n. rewrite <- !app_assoc.
    assert (NI : In c_colon u \/ In c_at u).
    { destruct D; [left|right]; apply in_or_app; right; now left. }
    rewrite side_carrot; auto.
    2:{ intros ->. destruct NI as [I|I]; revert I; vm_compute; intuition discriminate. }
    destruct u as [|c u]; [destruct NI as [[]|[]]|]. rewrite CU, V. destruct v as [vc vs]. cbn in S. now rewrite S.
Qed.
Lemma lex_auto hd r u href t : dest u href t -> ~ In c_gt u ->
  exists tok, tok_out tok = Some (true, a_tag href t) /\ lexed hd (lit "<" ++ u ++ lit ">") tok r.
Proof. intros D N. destruct (lex_auto_token hd r u href t D N) as (v & H1 & H2). eauto. Qed.
Lemma lex_lt_text hd r t : ~ In c_gt t -> t <> lit "details" ->
  existsb is_whitespace t = true \/ (~ In c_colon t /\ ~ In c_at t) ->
  lexed hd (lit "<" ++ t ++ lit ">") (Plaintext (lit "<" ++ t ++ lit ">")) r.
Proof.
  intros N ND H. eapply (lexed_errE hd c_lt); [reflexivity|]. apply disp_lt. intros L n. rewrite <- !app_assoc.
  rewrite side_carrot by auto. destruct t as [|c t]; [reflexivity|]. destruct H as [H|[H1 H2]]; [now rewrite H|].
  destruct (existsb is_whitespace (c :: t)); [reflexivity|].
  destruct (validate_link (c :: t)) as [[vc vs]|e] eqn:V; [|reflexivity].
  apply validate_no_scheme in V; auto. cbn in V. now subst vs.
Qed.
Lemma lex_lt_open hd t : ~ In c_gt t -> lexed hd (lit "<" ++ t) (Plaintext t) [].
Proof.
  intros N. eapply (lexed_errE hd c_lt); [reflexivity|]. apply disp_lt. intros L n.
  unfold lex_side_carrot, consume_while. rewrite app_nil_r.
  change (next_if_eq c_lt (lit "<" ++ t)) with (Some t). cbn iota.
  rewrite take_while_all, drop_while_all by (now apply not_in_forall). reflexivity.
Qed.

(** ** Bars *)
Lemma lex_eof hd : lexed hd [c_bslash] (Plaintext (lit "EOF")) [].
Proof. apply lexed_err. exact (disp_bslash hd [c_bslash]). Qed.
Lemma table_lines_step n l z : ~ In c_nl l -> table_lines (S n) (bar_line l ++ c_nl :: z) =
  match table_lines n z with Some (ls, r3) => Some (l :: ls, r3) | None => None end.
Proof.
  intros N. cbn [table_lines]. change (next_if_eq c_pipe (bar_line l ++ c_nl :: z)) with (Some (l ++ c_nl :: z)).
  cbn iota. unfold consume_while. destruct (text_take not_nl l (c_nl :: z)) as [-> ->]; [| |reflexivity].
  - apply (not_in_forall c_nl l N).
  - right. exists c_nl, z. auto.
Qed.
Lemma table_lines_last n l : ~ In c_nl l -> table_lines (S (S n)) (bar_line l) = Some ([l], []).
Proof.
  intros N. cbn [table_lines]. change (next_if_eq c_pipe (bar_line l)) with (Some l).
  cbn iota. unfold consume_while. rewrite drop_while_all, take_while_all by exact (not_in_forall c_nl l N). reflexivity.
Qed.
Lemma table_lines_bars ls z ls' r : (forall x, In x ls -> ~ In c_nl x) -> forall k,
  table_lines k z = Some (ls', r) -> table_lines (length ls + k) (bar_lines ls ++ z) = Some (ls ++ ls', r).
Proof.
  intros N k H. induction ls as [|l ls IH]; [exact H|]. unfold bar_lines. cbn [map concat length plus].
  fold (bar_lines ls). rewrite <- !app_assoc. cbn [app].
  rewrite table_lines_step by (apply N; now left). rewrite IH; [reflexivity|]. intros x I. apply N. now right.
Qed.
Lemma table_lines_more k k' z x : table_lines k z = Some x -> k <= k' -> table_lines k' z = Some x.
Proof.
  revert k' z x. induction k as [|k IH]; intros k' z x H L; [discriminate H|]. destruct k' as [|k']; [lia|].
  cbn [table_lines] in *. destruct (next_if_eq c_pipe z) as [r1|]; [|exact H]. unfold consume_while in *.
  destruct (table_lines k _) as [[ls r3]|] eqn:E; [|discriminate H]. now rewrite (IH k' _ _ E) by lia.
Qed.
Lemma bar_lines_length ls : length ls <= length (bar_lines ls).
Proof.
  induction ls as [|l ls IH]; [auto|]. unfold bar_lines. cbn [map concat length]. fold (bar_lines ls).
  rewrite !app_length. cbn. lia.
Qed.
Lemma lex_pipes_malformed L s r ls : table_lines (S (length (s ++ r))) (s ++ r) = Some (ls, r) -> malformed ls ->
  lex_pipes L (s ++ r) = Ret (LErr s r).
Proof.
  intros T M. unfold lex_pipes. rewrite T, substring_app.
  destruct ls as [|h [|a b]]; try reflexivity. destruct (length (h :: a :: b) <? 3) eqn:E3; [reflexivity|].
  apply Nat.ltb_ge in E3. destruct M as [M|(l & l' & I & I' & N)]; [lia|].
  assert (F : forallb (fun l => count_matches [c_pipe] l =? count_matches [c_pipe] h) (h :: a :: b) = false).
  { destruct (forallb _ _) eqn:F; [exfalso|auto]. rewrite forallb_forall in F.
    apply N. unfold bars. apply F, Nat.eqb_eq in I. apply F, Nat.eqb_eq in I'. rewrite !count_one in I, I'. congruence. }
  now rewrite F.
Qed.
Lemma disp_pipe hd r l : (forall L, lex_pipes L r = Ret l) -> disp hd c_pipe r l.
Proof. intros H L R n last; destruct hd; apply H. Qed.
Lemma bars_head ls l : exists z, bar_lines ls ++ bar_line l = c_pipe :: z.
Proof. destruct ls as [|l0 ls]; [now exists l|]. unfold bar_lines. cbn [map concat]. rewrite <- !app_assoc. eexists. reflexivity. Qed.
Lemma lex_bars hd r ls l : malformed (ls ++ [l]) -> (forall x, In x (ls ++ [l]) -> ~ In c_nl x) ->
  starts_in [c_pipe] r = false ->
  lexed hd ((bar_lines ls ++ bar_line l) ++ [c_nl]) (Plaintext ((bar_lines ls ++ bar_line l) ++ [c_nl])) r.
Proof.
  intros M N S0. destruct (bars_head ls l) as [z Z].
  eapply (lexed_errE hd c_pipe); [rewrite Z; reflexivity|]. apply disp_pipe. intros L.
  apply (lex_pipes_malformed L _ r (ls ++ [l])); [|exact M].
  apply (table_lines_more (length ls + 2)).
  - rewrite <- !app_assoc. apply table_lines_bars; [intros x I; apply N, in_or_app; auto|].
    change ([c_nl] ++ r) with (c_nl :: r). rewrite table_lines_step by (apply N, in_or_app; right; now left).
    cbn [table_lines]. now rewrite (starts_in_next c_pipe _ r S0) by (now left).
  - rewrite !app_length. pose proof (bar_lines_length ls). cbn. lia.
Qed.
Lemma lex_bars_end hd ls l : malformed (ls ++ [l]) -> (forall x, In x (ls ++ [l]) -> ~ In c_nl x) ->
  lexed hd (bar_lines ls ++ bar_line l) (Plaintext (bar_lines ls ++ bar_line l)) [].
Proof.
  intros M N. destruct (bars_head ls l) as [z Z].
  eapply (lexed_errE hd c_pipe); [rewrite Z; reflexivity|]. apply disp_pipe. intros L.
  apply (lex_pipes_malformed L _ [] (ls ++ [l])); [|exact M].
  apply (table_lines_more (length ls + 2)).
  - rewrite app_nil_r. apply table_lines_bars; [intros x I; apply N, in_or_app; auto|].
    apply table_lines_last. apply N, in_or_app. right. now left.
  - rewrite !app_length. pose proof (bar_lines_length ls). cbn. lia.
Qed.
(** A text that starts visibly, without note reference, loses at most its last
    line break. *)
Lemma out_text x t t' : is_whitespace x = false -> drop_blank_tail (x :: t) = x :: t' ->
  ~ infix (lit "[^") (x :: t') \/ ~ In c_rbrk (x :: t') ->
  tok_out (Plaintext (x :: t)) = Some (true, escaped (x :: t')).
Proof.
  intros W D N. cbn [tok_out]. rewrite is_blank_cons by exact W. unfold plaintext_html. rewrite D.
  assert (C : contains [c_lbrk; c_caret] (x :: t') && contains [c_rbrk] (x :: t') = false).
  { apply andb_false_iff. destruct N as [N|N]; [left|right].
    - destruct (contains _ _) eqn:E; [|auto]. apply contains_iff in E. now elim N.
    - destruct (contains _ _) eqn:E; [|auto]. apply contains_iff in E. elim N.
      eapply infix_In; [exact E|now left]. }
  rewrite C. unfold trim_start_by. cbn [drop_while].
  assert (E : ceq c_nl x = false). { apply ceq_neq. intros <-. discriminate W. }
  rewrite E. now rewrite escaped_sanitize.
Qed.
Lemma drop_blank_tail_bars a l : ~ In c_nl l -> drop_blank_tail (a ++ bar_line l) = a ++ bar_line l.
Proof.
  intros N. unfold drop_blank_tail, rfind_split_at. destruct (rsplit_once c_nl (a ++ bar_line l)) as [[u v]|] eqn:E; [|auto].
  apply rsplit_once_some in E as [E NV].
  assert (I : In c_pipe v).
  { apply app_eq_app in E as (k & [[E1 E2]|[E1 E2]]).
    - destruct k as [|y k]; [discriminate E2|]. assert (V : v = k ++ bar_line l) by (cbn in E2; congruence).
      rewrite V. apply in_or_app. right. now left.
    - exfalso. assert (I : In c_nl (bar_line l)) by (rewrite E2; apply in_or_app; right; now left).
      destruct I as [I|I]; [discriminate I | auto]. }
  destruct (forallb is_whitespace (c_nl :: v)) eqn:F; [|auto]. rewrite forallb_forall in F.
  specialize (F c_pipe (or_intror I)). discriminate F.
Qed.
Lemma drop_blank_tail_nl a x : x <> c_nl -> drop_blank_tail ((a ++ [x]) ++ [c_nl]) = a ++ [x].
Proof.
  intros N. unfold drop_blank_tail, rfind_split_at.
  assert (R : rsplit_once c_nl ((a ++ [x]) ++ [c_nl]) = Some (a ++ [x], [])).
  { apply rsplit_once_some. auto. }
  rewrite R. cbn [forallb]. change (is_whitespace c_nl) with true. cbn iota.
  unfold trim_end_matches. rewrite !rev_app_distr. cbn [rev app]. rewrite !app_length. cbn [length].
  replace (length a + 1 + 1) with (S (S (length a))) by lia. cbn [drop_prefixes strip_prefix]. rewrite ceq_refl.
  assert (E : ceq c_nl x = false) by (apply ceq_neq; congruence). rewrite E.
  cbn [rev]. now rewrite rev_involutive.
Qed.
Lemma out_bars ls l (b : bool) : (forall x, In x (ls ++ [l]) -> ~ In c_nl x) ->
  ~ infix (lit "[^") (bar_lines ls ++ bar_line l) \/ ~ In c_rbrk (bar_lines ls ++ bar_line l) ->
  tok_out (Plaintext ((bar_lines ls ++ bar_line l) ++ (if b then [c_nl] else []))) =
  Some (true, escaped (bar_lines ls ++ bar_line l)).
Proof.
  intros N NR. destruct (bars_head ls l) as [z Z].
  assert (NL : ~ In c_nl l) by (apply N, in_or_app; right; now left).
  assert (D : drop_blank_tail ((bar_lines ls ++ bar_line l) ++ (if b then [c_nl] else [])) = bar_lines ls ++ bar_line l).
  { destruct b; [|rewrite app_nil_r; now apply drop_blank_tail_bars].
    destruct (exists_last (l := bar_line l)) as (y & x & E); [easy|]. rewrite E, (app_assoc _ y). apply drop_blank_tail_nl.
    intros ->. assert (I : In c_nl (bar_line l)) by (rewrite E; apply in_or_app; right; now left).
    destruct I as [I|I]; [discriminate I | auto]. }
  rewrite Z in *. cbn [app]. apply out_text; auto.
Qed.

Lemma split_refs ids : Forall (fun i => ~ infix (lit "[^") i) ids -> forall a acc, ~ infix (lit "[^") a ->
  split_go [c_lbrk; c_caret] 0 acc (a ++ note_refs ids) = (rev acc ++ a) :: map (fun i => i ++ lit "]") ids.
Proof.
  induction 1 as [|i ids N F IH]; intros a acc NA.
  - unfold note_refs. cbn [map concat]. rewrite app_nil_r. now apply split_none.
  - unfold note_refs. cbn [map concat]. fold (note_refs ids).
    replace (a ++ (lit "[^" ++ i ++ lit "]") ++ note_refs ids) with (a ++ c_lbrk :: c_caret :: (i ++ lit "]") ++ note_refs ids)
      by (rewrite <- !app_assoc; reflexivity).
    rewrite split_go_first; [|discriminate|exact NA]. f_equal. unfold split. rewrite IH; [reflexivity|].
    intros K. apply N. eapply infix_snoc; [exact K | discriminate].
Qed.
Lemma pieces_numbered ids : Forall (fun i => ~ In c_rbrk i) ids -> forall n,
  footnote_pieces n (map (fun i => i ++ lit "]") ids) = numbered n ids.
Proof.
  induction 1 as [|i ids N F IH]; intros n; [reflexivity|]. cbn [map footnote_pieces numbered].
  change (lit "]") with [c_rbrk]. rewrite trim_end_snoc by reflexivity. rewrite ends_with_app. cbn iota.
  unfold trim_end_by. rewrite rev_app_distr. cbn [rev app drop_while]. change (ceq c_rbrk c_rbrk) with true. cbn iota.
  assert (D : drop_while (ceq c_rbrk) (rev i) = rev i).
  { destruct (rev i) as [|x l] eqn:RI; [auto|]. cbn [drop_while]. assert (X : ceq c_rbrk x = false).
    { apply ceq_neq. intros <-. apply N. apply in_rev. rewrite RI. now left. } now rewrite X. }
  rewrite D, rev_involutive. change [c_rbrk] with (lit "]"). rewrite IH. unfold footnote_ref, note_tag.
  now rewrite !escaped_sanitize.
Qed.
Lemma out_bar_notes t ids : ids <> [] -> ~ In c_nl t -> ~ In c_rbrk t -> ~ infix (lit "[^") t ->
  Forall (fun i => ~ In c_nl i /\ ~ In c_rbrk i /\ ~ infix (lit "[^") i) ids ->
  ~ In c_nl (t ++ note_refs ids) /\
  tok_out (Plaintext (bar_line (t ++ note_refs ids))) = Some (true, bar_line t ++ numbered 1 ids).
Proof.
  intros NE N1 N2 N3 F.
  assert (NL : ~ In c_nl (t ++ note_refs ids)).
  { intros I. apply in_app_or in I as [I|I]; [auto|]. apply in_concat in I as (y & Iy & I).
    apply in_map_iff in Iy as (i & <- & Ii). rewrite Forall_forall in F. destruct (F i Ii) as (K & _ & _).
    apply in_app_or in I as [I|I]; [destruct I as [I|[I|[]]]; discriminate I|].
    apply in_app_or in I as [I|[I|[]]]; [auto | discriminate I]. }
  split; [exact NL|]. cbn [tok_out]. unfold bar_line at 1. rewrite is_blank_cons by reflexivity.
  do 2 f_equal. unfold plaintext_html.
  rewrite (drop_blank_tail_bars [] _ NL : drop_blank_tail (bar_line (t ++ note_refs ids)) = _). cbn [app].
  assert (C1 : contains [c_lbrk; c_caret] (bar_line (t ++ note_refs ids)) = true).
  { apply contains_iff. destruct ids as [|i ids]; [easy|]. exists (bar_line t), ((i ++ lit "]") ++ note_refs ids).
    unfold bar_line, note_refs. cbn [map concat app]. repeat (rewrite <- ?app_assoc; cbn [app]). reflexivity. }
  assert (C2 : contains [c_rbrk] (bar_line (t ++ note_refs ids)) = true).
  { apply contains_iff. destruct ids as [|i ids]; [easy|]. exists (bar_line t ++ lit "[^" ++ i), (note_refs ids).
    unfold bar_line, note_refs. cbn [map concat app]. repeat (rewrite <- ?app_assoc; cbn [app]). reflexivity. }
  rewrite C1, C2. cbn [andb]. unfold split. change (bar_line (t ++ note_refs ids)) with (bar_line t ++ note_refs ids).
  rewrite split_refs.
  - cbn [rev app footnote_pieces].
    assert (E : ends_with [c_rbrk] (trim_end (bar_line t)) = false).
    { destruct (ends_with _ _) eqn:E; [exfalso|reflexivity]. apply ends_with_iff in E as [y E].
      assert (I : In c_rbrk (bar_line t)).
      { eapply infix_In; [apply infix_trim_end|]. rewrite E. apply in_or_app. right. now left. }
      destruct I as [I|I]; [discriminate I | auto]. }
    rewrite E, pieces_numbered; [reflexivity|]. revert F. apply Forall_impl. tauto.
  - revert F. apply Forall_impl. tauto.
  - intros (x & y & K). destruct x as [|x0 x]; [discriminate K|]. apply N3. exists x, y. exact (f_equal (@tl char) K).
Qed.

(** ** Backticks that are not closed, and an exclamation mark before a note *)
Lemma lex_tick_open hd n t : 1 <= n -> n <> 3 -> t <> [] -> starts_in [c_tick] t = false -> ~ infix (crep n c_tick) t ->
  lexed hd (crep n c_tick ++ t) (Plaintext (crep n c_tick ++ t)) [].
Proof.
  intros Hn N3 NE S0 I. destruct n as [|n']; [lia|]. eapply (lexed_errE hd c_tick); [reflexivity|]. intros L R k last. rewrite app_nil_r.
  assert (NI : forall p q, t = p ++ q -> ends_with (crep (S n') c_tick) p = false).
  { intros p q ->. destruct (ends_with _ p) eqn:X; [|auto]. exfalso. apply I. apply ends_with_iff in X as [y ->].
    exists y, q. now rewrite <- app_assoc. }
  assert (G : lex_backticks (crep (S n') c_tick ++ t) = LErr (crep (S n') c_tick ++ t) []).
  { unfold lex_backticks, consume_while.
    destruct (run_take [c_tick] (crep (S n') c_tick) t (ceq c_tick)) as [-> ->]; auto.
    { apply crep_forall, ceq_refl. }
    { intros c X. apply ceq_eq in X. subst. now left. }
    rewrite crep_length. apply Nat.eqb_neq in N3. rewrite N3.
    rewrite consume_until_tail_none by (intros p q E _; now apply (NI p q)).
    rewrite (NI t []) by now rewrite app_nil_r. cbn [negb]. now rewrite substring_all. }
  unfold dispatch. rewrite G. destruct hd; reflexivity.
Qed.
Lemma lex_fence_open hd t : ~ In c_tick t -> lexed hd (lit "```" ++ t) (Plaintext (lit "```" ++ t)) [].
Proof.
  intros N. eapply (lexed_errE hd c_tick); [reflexivity|]. intros L R k last. rewrite app_nil_r.
  assert (G : lex_backticks (lit "```" ++ t) = LErr (lit "```" ++ t) []).
  { unfold lex_backticks, consume_while.
    destruct (run_take [c_tick] (lit "```") t (ceq c_tick)) as [-> ->]; auto.
    { intros c X. apply ceq_eq in X. subst. now left. }
    { destruct t as [|x t]; [reflexivity|]. cbn [starts_in mem_char existsb]. rewrite orb_false_r. apply ceq_neq. intros ->. apply N. now left. }
    change (length (lit "```") =? 3) with true. cbn iota.
    assert (E : exists l r2, (match next_if_eq c_nl t with
      | Some r2 => ([], r2)
      | None => (take_while not_nl t, next (drop_while not_nl t)) end) = (l, r2) /\ ~ In c_tick r2).
    { destruct (next_if_eq c_nl t) as [r2|] eqn:X.
      - exists [], r2. split; [auto|]. destruct t as [|x t]; [discriminate|]. cbn [next_if_eq] in X. destruct (ceq x c_nl); [|discriminate].
        injection X as ->. intros Y. apply N. now right.
      - eexists _, _. split; [reflexivity|]. intros Y. apply N.
        assert (Y' : In c_tick (drop_while not_nl t)) by (destruct (drop_while not_nl t); [destruct Y|now right]).
        clear - Y'. induction t as [|x t IH]; [auto|]. cbn [drop_while] in Y'. destruct (not_nl x); [right; auto|exact Y']. }
    destruct E as (l & r2 & -> & N2).
    assert (E2 : take_while (fun c => negb (ceq c c_tick)) r2 = r2 /\ drop_while (fun c => negb (ceq c c_tick)) r2 = []).
    { destruct (text_take (fun c => negb (ceq c c_tick)) r2 []) as [K1 K2]; [now apply not_in_forall|now left|].
      rewrite app_nil_r in *. auto. }
    destruct E2 as [-> ->]. cbn [take_while drop_while]. change (length (lit "```") =? length (@nil char)) with false. cbn iota.
    now rewrite substring_all. }
  unfold dispatch. rewrite G. destruct hd; reflexivity.
Qed.
Lemma lex_bang_note hd r i t : ~ In c_rbrk i -> existsb is_whitespace i = false -> ~ In c_nl t -> starts_in blank_chars r = false ->
  lexed hd (lit "![^" ++ i ++ lit "]:" ++ t ++ [c_nl]) (Plaintext (lit "Non link token returned from lex_links")) r.
Proof.
  intros N1 W N2 S0. eapply (lexed_errE hd c_bang); [reflexivity|]. intros L R n last.
  assert (G : lex_images ((lit "![^" ++ i ++ lit "]:" ++ t ++ [c_nl]) ++ r) = Ret (LErr (lit "Non link token returned from lex_links") r)).
  { unfold lex_images. rewrite <- !app_assoc. set (z := t ++ [c_nl] ++ r).
    change (next_if_eq c_bang (lit "![^" ++ i ++ lit "]:" ++ z)) with (Some (lit "[" ++ (lit "^" ++ i) ++ lit "]:" ++ z)). cbn iota.
    change (lit "]:" ++ z) with (lit "]" ++ c_colon :: z).
    rewrite links_closed by (intros [I|I]; [discriminate I|auto]).
    change (lit "^" ++ i) with ([c_caret] ++ i). rewrite (starts_with_app [c_caret] i). cbn [next_if_eq]. change (ceq c_colon c_colon) with true. cbn iota.
    unfold lex_footnote.
    assert (FL : footnote_lines (S (length z)) z = Some (inl r)).
    { cbn [footnote_lines]. unfold z. destruct (text_take not_nl t ([c_nl] ++ r)) as [_ ->].
      { now apply not_in_forall. }
      { right. exists c_nl, r. auto. }
      cbn [app next tl]. rewrite !(starts_in_peek _ _ r S0) by (cbn; tauto). reflexivity. }
    rewrite FL. rewrite (strip_prefix_app [c_caret] i). cbn [or_empty]. rewrite W. reflexivity. }
  unfold dispatch. rewrite G. destruct hd; reflexivity.
Qed.

(** Five or more spaces. *)
Lemma literal_head t r : literal t -> starts_in blank_chars (t ++ r) = false /\ peek_is c_nl (t ++ r) = false.
Proof.
  intros ((x & t' & -> & W) & _). cbn [app starts_in peek_is]. split.
  - destruct (mem_char x blank_chars) eqn:E; [|reflexivity]. apply mem_char_iff in E.
    destruct E as [<-|[<-|[]]]; discriminate W.
  - apply ceq_neq. intros E. subst x. discriminate W.
Qed.
Lemma lex_many hd r n t : 5 <= n -> ~ In c_nl t -> literal t -> starts_in blank_chars r = false ->
  lexed hd (crep n c_sp ++ t ++ [c_nl]) (Plaintext (crep n c_sp ++ t ++ [c_nl])) r.
Proof.
  intros Hn NL LT S0. destruct (literal_head t ([c_nl] ++ r) LT) as [S1 P1].
  destruct (crep_cons n c_sp ltac:(lia)) as (n' & E & EC).
  eapply (lexed_errE hd c_sp); [rewrite EC; reflexivity|]. rewrite EC. cbn [app]. apply disp_sp. intros last.
  unfold lex_tabs_spaces. cbn [length lex_tabs_spaces_go].
  rewrite !app_comm_cons, <- EC. rewrite <- !app_assoc. unfold consume_while.
  destruct (run_take blank_chars (crep n c_sp) (t ++ [c_nl] ++ r) is_sp_tab) as [-> ->]; auto using is_sp_tab_in.
  { now apply crep_forall. }
  rewrite crep_length, no_tab_crep.
  assert (E2 : (n <=? 3) = false) by (apply Nat.leb_gt; lia). rewrite E2, andb_false_r, P1, andb_false_r. cbn [andb].
  assert (CU : consume_until_tail_is [c_nl] (t ++ [c_nl] ++ r) = (t ++ [c_nl], r)).
  { rewrite app_assoc. apply consume_until_tail_first; [apply ends_with_app|].
    intros p q EQ NE. destruct (exists_last NE) as (q' & y & ->). rewrite app_assoc in EQ. apply app_inj_tail in EQ as [EQ _].
    destruct (ends_with [c_nl] p) eqn:EW; [|reflexivity]. apply ends_with_iff in EW as [p' ->]. elim NL. rewrite EQ.
    apply in_or_app. left. apply in_or_app. right. now left. }
  rewrite CU.
  assert (SE : forall w, length w < 5 -> str_eqb (crep n c_sp) w = false).
  { intros w LW. destruct (str_eqb (crep n c_sp) w) eqn:X; [|reflexivity]. apply str_eqb_eq in X. subst w. rewrite crep_length in LW. lia. }
  rewrite !SE by (cbn; lia). cbn [andb orb].
  rewrite !(starts_in_peek _ _ r S0) by (cbn; tauto). cbn [orb].
  do 2 f_equal. rewrite !app_assoc. apply substring_app.
Qed.
Lemma crep_tail n c t : literal t -> ~ In c_nl t -> exists b y, crep n c ++ t = b ++ [y] /\ y <> c_nl.
Proof.
  intros ((x & t' & E & _) & _) NL. destruct (exists_last (l := t)) as (b & y & F); [now rewrite E|]. exists (crep n c ++ b), y.
  split; [rewrite F; apply app_assoc|]. intros ->. elim NL. rewrite F. apply in_or_app. right. now left.
Qed.
Lemma contains_blanks p n t : starts_with [c_sp] p = false -> p <> [] -> contains p (crep n c_sp ++ t) = contains p t.
Proof.
  intros ST NE. induction n as [|n IH]; [reflexivity|]. change (crep (S n) c_sp ++ t) with (c_sp :: (crep n c_sp ++ t)).
  rewrite <- IH. destruct p as [|c p]; [easy|]. cbn [contains starts_with] in *.
  assert (ceq c c_sp = false) as -> by (destruct (ceq c c_sp) eqn:E; [apply ceq_eq in E; subst c; discriminate ST|reflexivity]). reflexivity.
Qed.
Lemma esc_blanks n : flat_map esc (crep n c_sp) = crep n c_sp.
Proof. unfold crep. induction n as [|n IH]; [reflexivity|]. cbn [repeat flat_map]. now rewrite IH. Qed.
Lemma out_many n t : 1 <= n -> ~ In c_nl t -> literal t ->
  tok_out (Plaintext (crep n c_sp ++ t ++ [c_nl])) = Some (true, crep n c_sp ++ escaped t).
Proof.
  intros Hn NL LT. destruct (crep_tail n c_sp t LT NL) as (b & y & EB & NY).
  assert (B : is_blank (crep n c_sp ++ t ++ [c_nl]) = false).
  { destruct LT as ((x & t' & -> & W) & _). pose proof (is_blank_cons x (t' ++ [c_nl]) W) as K. cbn [app].
    unfold is_blank, trim, trim_start_by in *. rewrite drop_while_app by (now apply crep_forall). exact K. }
  cbn [tok_out]. rewrite B. unfold plaintext_html. rewrite app_assoc, EB, drop_blank_tail_nl, <- EB by exact NY.
  rewrite !contains_blanks by (reflexivity || easy).
  destruct LT as (X & _ & N).
  assert (C : contains [c_lbrk; c_caret] t && contains [c_rbrk] t = false).
  { apply andb_false_iff. destruct N as [N|N]; [left|right].
    - destruct (contains _ _) eqn:E; [|auto]. apply contains_iff in E. now elim N.
    - destruct (contains _ _) eqn:E; [|auto]. apply contains_iff in E. elim N.
      eapply infix_In; [exact E|now left]. }
  rewrite C. destruct (crep_cons n c_sp Hn) as (n' & -> & EC). rewrite EC. unfold trim_start_by. cbn [app drop_while].
  change (ceq c_nl c_sp) with false. cbn iota. rewrite app_comm_cons, <- EC, <- escaped_sanitize. unfold escaped. rewrite flat_map_app.
  now rewrite esc_blanks.
Qed.

(** A note that is none. *)
Lemma lex_note_raw hd r i t k : ~ In c_rbrk i -> ~ In c_nl t ->
  (k = 0 /\ existsb is_whitespace i = true /\ starts_in blank_chars r = false) \/
  (1 <= k /\ k <> 2 /\ k <> 4 /\ starts_in [c_sp] r = false) ->
  lexed hd (lit "[^" ++ i ++ lit "]:" ++ t ++ [c_nl] ++ crep k c_sp)
    (Plaintext (lit "[^" ++ i ++ lit "]:" ++ t ++ [c_nl] ++ crep k c_sp)) r.
Proof.
  intros N1 N2 K. eapply (lexed_errE hd c_lbrk); [reflexivity|]. apply disp_lbrk.
  set (z := t ++ [c_nl] ++ crep k c_sp ++ r).
  assert (E : (lit "[^" ++ i ++ lit "]:" ++ t ++ [c_nl] ++ crep k c_sp) ++ r = lit "[" ++ (lit "^" ++ i) ++ lit "]" ++ c_colon :: z)
    by (unfold z; rewrite <- !app_assoc; reflexivity).
  pose proof (substring_app (lit "[^" ++ i ++ lit "]:" ++ t ++ [c_nl] ++ crep k c_sp) r) as SB. rewrite E in *.
  rewrite links_closed by (intros [I|I]; [discriminate I|auto]).
  change (lit "^" ++ i) with ([c_caret] ++ i) in *. rewrite (starts_with_app [c_caret] i). cbn [next_if_eq]. change (ceq c_colon c_colon) with true. cbn iota.
  unfold lex_footnote. rewrite (strip_prefix_app [c_caret] i). cbn [or_empty].
  assert (DW : drop_while not_nl z = [c_nl] ++ crep k c_sp ++ r).
  { unfold z. destruct (text_take not_nl t ([c_nl] ++ crep k c_sp ++ r)) as [_ D]; [now apply not_in_forall| |exact D].
    right. exists c_nl, (crep k c_sp ++ r). auto. }
  cbn [footnote_lines]. rewrite DW. cbn [app next tl].
  destruct K as [(-> & W & S0)|(K1 & K2 & K4 & S0)].
  - cbn [crep repeat app] in *. rewrite !(starts_in_peek _ _ r S0) by (cbn; tauto). cbn [negb andb]. rewrite W. exact (f_equal (fun w => Ret (LErr w r)) SB).
  - destruct (crep_cons k c_sp K1) as (k' & -> & EC). rewrite EC. cbn [app peek_is next_if_eq].
    change (ceq c_sp c_sp) with true. change (ceq c_sp c_tab) with false. cbn [negb andb]. cbn iota.
    change (c_sp :: crep k' c_sp ++ r) with (crep (S k') c_sp ++ r). unfold consume_while.
    destruct (run_take [c_sp] (crep (S k') c_sp) r (ceq c_sp)) as [-> ->]; auto.
    { now apply crep_forall. }
    { intros c X. apply ceq_eq in X. subst. now left. }
    rewrite crep_length. apply Nat.eqb_neq in K2, K4. rewrite K2, K4. cbn [orb]. exact (f_equal (fun w => Ret (LErr w r)) SB).
Qed.
Lemma drop_blank_tail_sp a x k : x <> c_nl -> is_whitespace x = false -> drop_blank_tail ((a ++ [x]) ++ [c_nl] ++ crep k c_sp) = a ++ [x].
Proof.
  intros N W. unfold drop_blank_tail, rfind_split_at.
  assert (NS : ~ In c_nl (crep k c_sp)) by (intros I; apply repeat_spec in I; discriminate I).
  assert (R : rsplit_once c_nl ((a ++ [x]) ++ [c_nl] ++ crep k c_sp) = Some (a ++ [x], crep k c_sp)).
  { apply rsplit_once_some. auto. }
  rewrite R.
  assert (F : forallb is_whitespace (c_nl :: crep k c_sp) = true) by (cbn [forallb]; now apply crep_forall).
  rewrite F. unfold trim_end_matches. change ([c_nl] ++ crep k c_sp) with (c_nl :: crep k c_sp). set (p := c_nl :: crep k c_sp) in *.
  rewrite (rev_app_distr _ p). rewrite !app_length. cbn [length].
  assert (LP : length p = S (length (crep k c_sp))) by reflexivity. rewrite LP.
  replace (length a + 1 + S (length (crep k c_sp))) with (S (S (length a + length (crep k c_sp)))) by lia. cbn [drop_prefixes].
  rewrite strip_prefix_app, rev_app_distr. cbn [rev app].
  assert (SN : strip_prefix (rev p) (x :: rev a) = None).
  { assert (NE : rev p <> []) by (intros Z; apply (f_equal (@length char)) in Z; rewrite rev_length in Z; discriminate Z).
    destruct (rev p) as [|y q] eqn:RP; [easy|]. cbn [strip_prefix].
    assert (Y : is_whitespace y = true).
    { apply (proj1 (forallb_forall _ _) F). apply in_rev. rewrite RP. now left. }
    assert (E : ceq y x = false) by (apply ceq_neq; intros ->; congruence). now rewrite E. }
  rewrite SN. cbn [rev]. now rewrite rev_involutive.
Qed.
Lemma out_note_raw i t x k : ~ In c_rbrk i -> ~ infix (lit "[^") (i ++ lit "]:" ++ t ++ [x]) ->
  is_whitespace x = false -> x <> c_rbrk ->
  tok_out (Plaintext (lit "[^" ++ i ++ lit "]:" ++ (t ++ [x]) ++ [c_nl] ++ crep k c_sp)) = Some (true, i ++ lit "]:" ++ t ++ [x]).
Proof.
  intros N1 N2 W X. cbn [tok_out].
  assert (B : is_blank (lit "[^" ++ i ++ lit "]:" ++ (t ++ [x]) ++ [c_nl] ++ crep k c_sp) = false) by (now apply is_blank_cons). rewrite B.
  do 2 f_equal. unfold plaintext_html.
  assert (E : lit "[^" ++ i ++ lit "]:" ++ (t ++ [x]) ++ [c_nl] ++ crep k c_sp = ((lit "[^" ++ i ++ lit "]:" ++ t) ++ [x]) ++ [c_nl] ++ crep k c_sp)
    by (now rewrite <- !app_assoc).
  rewrite E, drop_blank_tail_sp by (auto; intros ->; discriminate W).
  assert (E' : (lit "[^" ++ i ++ lit "]:" ++ t) ++ [x] = lit "[^" ++ i ++ lit "]:" ++ t ++ [x]) by (now rewrite <- !app_assoc).
  rewrite E'. clear E E'. set (y := i ++ lit "]:" ++ t ++ [x]) in *.
  assert (C1 : contains [c_lbrk; c_caret] (lit "[^" ++ y) = true).
  { apply contains_iff. exists [], y. reflexivity. }
  assert (C2 : contains [c_rbrk] (lit "[^" ++ y) = true).
  { apply contains_iff. exists (lit "[^" ++ i), (lit ":" ++ t ++ [x]). unfold y. now rewrite <- !app_assoc. }
  rewrite C1, C2. cbn [andb].
  assert (SP : split [c_lbrk; c_caret] (lit "[^" ++ y) = [[]; y]).
  { unfold split. change (lit "[^" ++ y) with ([] ++ c_lbrk :: c_caret :: y).
    rewrite split_go_first; [|discriminate|intros (u & v & K); destruct u; discriminate K].
    cbn [rev app]. f_equal. unfold split. rewrite split_none; [reflexivity|exact N2]. }
  rewrite SP. cbn [footnote_pieces]. change (ends_with [c_rbrk] (trim_end [])) with false. cbn iota.
  assert (EY : y = (i ++ lit "]:" ++ t) ++ [x]) by (unfold y; now rewrite <- !app_assoc).
  rewrite EY. rewrite trim_end_snoc by exact W.
  assert (EW : ends_with [c_rbrk] ((i ++ lit "]:" ++ t) ++ [x]) = false).
  { unfold ends_with. rewrite rev_app_distr. cbn [rev app starts_with]. apply andb_false_iff. left. apply ceq_neq. congruence. }
  rewrite EW. now rewrite app_nil_r.
Qed.

(** ** All pieces *)
Lemma digit_show d : is_digit d = true -> visible d = true /\ show d = [d].
Proof. intros H. apply digit_in in H. repeat (destruct H as [<-|H]; [split; reflexivity|]). destruct H. Qed.
Lemma piece_lexed hd r s v h : piece hd r s v h -> exists t, tok_out t = Some (v, h) /\ lexed hd s t r.
Proof.
  intros [].
  - exists (Plaintext [c]). split; [apply out_char | apply lexed_ok, disp_plain; auto].
  - subst hd. exists (Plaintext [c_hash]). split; [reflexivity | apply lexed_ok, disp_hash_head; auto].
  - exists (Plaintext (crep n c_hash)). split; [|now apply lex_hashes].
    apply out_escaped; [apply crep_literal; auto; discriminate | now apply crep_escaped].
  - exists (Plaintext (crep n c_sp)). split; [|now apply lex_blanks].
    cbn [tok_out]. rewrite is_blank_all; [auto | now apply crep_forall].
  - exists LineBreak. split; [reflexivity | now apply lex_break].
  - exists (Plaintext [c_nl]). split; [reflexivity | now apply lex_newline].
  - exists (Plaintext [d]). split; [|now apply lex_digit]. rewrite out_char. destruct (digit_show d H) as [-> ->]. auto.
  - exists (Plaintext [d; c_dot]). split; [|now apply lex_digit_dot].
    pose proof (digit_in d H) as I. repeat (destruct I as [<-|I]; [reflexivity|]). destruct I.
  - exists (Plaintext [c_bang]). split; [reflexivity | now apply lex_bang].
  - exists (Plaintext [a; b]). split; [|now apply lex_dashes].
    destruct H as [<-|[<-|[]]], H0 as [<-|[<-|[]]]; reflexivity.
  - exists (Plaintext (crep n c_gt)). split; [|now apply lex_arrows].
    apply out_literal, crep_literal; auto; discriminate.
  - exists (Plaintext (crep n c_tilde)). split; [|now apply lex_tildes].
    apply out_literal, crep_literal; auto; discriminate.
  - exists (Strikethrough t). split; [reflexivity | now apply lex_strike].
  - eexists. split; [apply out_literal; eassumption | now apply lex_no_strike].
  - exists (Italic t). split; [reflexivity | now apply lex_em].
  - exists (Italic t). split; [reflexivity | now apply lex_em_open].
  - exists (Bold t). split; [reflexivity|].
    pose proof (lex_strongs hd r0 ds t ds' (or_introl H) H1 H2 H3 H4 H5) as G. rewrite H, H0 in G. apply G.
    intros ->. discriminate H0.
  - exists (BoldItalic t). split; [reflexivity|].
    pose proof (lex_strongs hd r0 ds t ds' (or_intror H) H1 H2 H3 H4 H5) as G. rewrite H, H0 in G. apply G.
    intros ->. discriminate H0.
  - eexists. split; [apply out_literal; eassumption|].
    pose proof (lex_strongs hd r0 ds t ds' H H1 H2 H3 H4 H5 H6) as G. apply Nat.eqb_neq in H0. now rewrite H0 in G.
  - exists (Plaintext [c]). split; [apply out_char | now apply lex_escape].
  - exists (Plaintext (lit "EOF")). split; [reflexivity | apply lex_eof].
  - exists (Plaintext (crep n c_hash)). split; [|now apply lex_escape_hashes].
    apply out_escaped; [apply crep_literal; auto; discriminate | now apply crep_escaped].
  - now apply lex_link.
  - exists (Plaintext u). split; [now apply out_literal | now apply lex_link_rejected].
  - now apply lex_link_title.
  - now apply lex_auto.
  - destruct (lex_image hd r0 t u src H H0 H1) as (tok & T & L). exists tok. split; [|exact L]. rewrite T. now destruct src.
  - destruct (lex_image hd r0 t u [] H H0 H1) as (tok & T & L). exists tok. split; [|exact L]. now rewrite T.
  - eexists. split; [apply out_literal; eassumption | now apply lex_brackets].
  - eexists. split; [apply out_literal; eassumption | now apply lex_bracket_open].
  - eexists. split; [apply out_noteref; eassumption | now apply lex_noteref].
  - eexists. split; [apply out_literal; eassumption | now apply lex_lt_open].
  - eexists. split; [apply out_literal; eassumption | now apply lex_lt_text].
  - eexists. split; [apply (out_bars ls l true); assumption | now apply lex_bars].
  - eexists. split; [|now apply lex_bars_end].
    rewrite <- (app_nil_r (bar_lines ls ++ bar_line l)) at 1. now apply (out_bars ls l false).
  - destruct (out_bar_notes t ids) as [NL O]; auto. eexists. split; [exact O|].
    apply (lex_bars_end hd [] (t ++ note_refs ids)); [left; cbn; lia|]. intros x [<-|[]]. exact NL.
  - eexists. split; [apply out_literal; eassumption | now apply lex_tick_open].
  - eexists. split; [apply out_literal; eassumption | now apply lex_fence_open].
  - eexists. split; [|now apply lex_bang_note]. reflexivity.
  - eexists. split; [|now apply lex_many]. apply out_many; auto; lia.
  - eexists. split; [apply out_note_raw; eassumption|]. apply lex_note_raw; auto.
    rewrite in_app_iff. intros [I|[I|[]]]; [auto|]. subst. discriminate.
Qed.
