(** * WorkFacts: the work of the renderer is at most quadratic. *)
From Coq Require Import Ascii String.
From Verif Require Import Strings StringsFacts Token Iter Lexer Parser LexerFacts LexMono
  SanitizeFacts HtmlFacts Master OutputFacts SizeLex SizeFacts Work.
Open Scope list_scope.

(** ** Without the count *)
Lemma fst_wbind {A B} (m : work A) (k : A -> work B) : fst (wbind m k) = bind (fst m) (fun a => fst (k a)).
Proof. unfold wbind. now destruct (fst m). Qed.
Lemma bind_cong {A B} (m m' : res A) (k k' : A -> res B) :
  m = m' -> (forall a, k a = k' a) -> bind m k = bind m' k'.
Proof. intros <- H. destruct m; cbn [bind]; auto. Qed.
Lemma mapW_erase {A B} (f : A -> work B) (g : A -> res B) l :
  (forall x, fst (f x) = g x) -> fst (mapW f l) = mapM g l.
Proof.
  intros H. induction l as [|x l IH]; [reflexivity|]. cbn [mapW mapM]. rewrite fst_wbind. apply bind_cong; [apply H|].
  intros y. rewrite fst_wbind. apply bind_cong; [exact IH|]. reflexivity.
Qed.

Section EraseLex.
Variable LEXW : str -> list char -> work (list token).
Variable RENDERW : str -> list char -> work str.
Variable LOOP : nat.
Variable LEX : str -> list char -> res (list token).
Variable RENDER : str -> list char -> res str.
Hypothesis HL : forall s ig, fst (LEXW s ig) = LEX s ig.
Hypothesis HR : forall s ig, fst (RENDERW s ig) = RENDER s ig.

Ltac go := repeat first
  [ reflexivity
  | rewrite fst_wbind; apply bind_cong; [solve [apply HL | apply HR] | intros; reflexivity]
  | match goal with |- context [match ?x with _ => _ end] => destruct x end ].

Lemma lex_heading_erase r : fst (lex_heading_w RENDERW r) = lex_heading RENDER r.
Proof. unfold lex_heading_w, lex_heading. go. Qed.
Lemma list_item_erase line toks r : fst (list_item_w LEXW line toks r) = list_item_token LEX line toks r.
Proof. unfold list_item_w, list_item_token. go. Qed.
Lemma lex_plus_minus_erase r : fst (lex_plus_minus_w LEXW r) = lex_plus_minus LEX r.
Proof.
  unfold lex_plus_minus_w, lex_plus_minus. destruct (consume_while _ r) as [s r1].
  destruct (length s) as [|[|[|k]]]; try reflexivity. destruct (consume_while _ r1) as [a r2].
  destruct (list_paragraphs _ r2) as [[more r3]|]; [|reflexivity]. apply list_item_erase.
Qed.
Lemma parse_details_erase r : fst (parse_details_w LEXW LOOP r) = parse_details LEX LOOP r.
Proof.
  unfold parse_details_w, parse_details. destruct (consume_while _ r) as [s r1].
  destruct (_ || _); [reflexivity|]. destruct (strip_prefix _ s) as [s1|]; [|reflexivity].
  destruct (consume_until_tail_is _ _) as [t0 r3].
  destruct (if contains _ t0 then _ else _) as [[text r4]|]; [|reflexivity].
  rewrite fst_wbind. apply bind_cong; [apply HL|reflexivity].
Qed.
Lemma lex_side_carrot_erase r : fst (lex_side_carrot_w LEXW LOOP r) = lex_side_carrot LEX LOOP r.
Proof.
  unfold lex_side_carrot_w, lex_side_carrot. destruct (next_if_eq c_lt r) as [r1|]; [|reflexivity].
  destruct (consume_while _ r1) as [s r2]. destruct (next_if_eq c_gt r2) as [r3|]; [|reflexivity].
  destruct (str_eqb s _). { destruct (next_if_eq c_nl _); [apply parse_details_erase|reflexivity]. }
  go.
Qed.
Lemma lex_row_erase l : fst (lex_row_w LEXW l) = lex_row LEX l.
Proof.
  apply mapW_erase. intros e. rewrite fst_wbind. apply bind_cong; [apply HL|reflexivity].
Qed.
Lemma lex_pipes_erase r : fst (lex_pipes_w LEXW r) = lex_pipes LEX r.
Proof.
  unfold lex_pipes_w, lex_pipes. destruct (table_lines _ r) as [[ls r1]|]; [|reflexivity].
  destruct ls as [|a [|b body]]; try reflexivity. destruct (_ <? 3); [reflexivity|]. destruct (negb _); [reflexivity|].
  rewrite fst_wbind. apply bind_cong; [|reflexivity]. apply mapW_erase. intros l. rewrite fst_wbind.
  apply bind_cong; [apply lex_row_erase|reflexivity].
Qed.
Lemma dispatch_erase ig last c r :
  fst (dispatch_w LEXW RENDERW LOOP ig last c r) = dispatch LEX RENDER LOOP ig last c r.
Proof.
  unfold dispatch_w, dispatch.
  repeat (destruct (_ : bool); [solve [reflexivity | apply lex_heading_erase | apply lex_plus_minus_erase
    | apply lex_side_carrot_erase | apply lex_pipes_erase]|]). reflexivity.
Qed.
Lemma next_token_erase ig last r :
  fst (next_token_w LEXW RENDERW LOOP ig last r) = next_token LEX RENDER LOOP ig last r.
Proof.
  unfold next_token_w, next_token. destruct r as [|c r]; [reflexivity|]. rewrite fst_wbind.
  apply bind_cong; [apply dispatch_erase|]. now intros [|].
Qed.
Lemma lex_loop_erase n : forall ig last r,
  fst (lex_loop_w LEXW RENDERW LOOP n ig last r) = lex_loop LEX RENDER LOOP n ig last r.
Proof.
  induction n as [|n IH]; intros ig last r; [reflexivity|]. cbn [lex_loop_w lex_loop]. rewrite fst_wbind.
  apply bind_cong; [apply next_token_erase|]. intros [[t r']|]; [|reflexivity]. rewrite fst_wbind.
  apply bind_cong; [apply IH|reflexivity].
Qed.
End EraseLex.

Section EraseParse.
Variable RENDERW : str -> work str.
Variable PARSEW : list token -> work str.
Variable RENDER : str -> res str.
Variable PARSE : list token -> res str.
Hypothesis HR : forall s, fst (RENDERW s) = RENDER s.
Hypothesis HP : forall ts, fst (PARSEW ts) = PARSE ts.

Lemma list_child_erase t : fst (list_child_w RENDERW t) = list_child RENDER t.
Proof.
  destruct t; try reflexivity. cbn [list_child_w list_child].
  destruct (starts_with _ _); rewrite fst_wbind; (apply bind_cong; [apply HR|reflexivity]).
Qed.
Lemma cell_token_erase e t : fst (cell_token_w PARSEW e t) = cell_token PARSE e t.
Proof. destruct t; try reflexivity; apply HP. Qed.
Lemma table_erase hs rows : fst (table_html_w PARSEW hs rows) = table_html PARSE hs rows.
Proof.
  unfold table_html_w, table_html. rewrite fst_wbind. apply bind_cong; [|reflexivity]. apply mapW_erase.
  intros row. unfold row_html_w, row_html. rewrite fst_wbind. apply bind_cong; [|reflexivity]. apply mapW_erase.
  intros e. unfold cell_html_w, cell_html. rewrite fst_wbind. apply bind_cong; [|reflexivity]. apply mapW_erase.
  intros t. apply cell_token_erase.
Qed.
Lemma body_erase t p : fst (body_w RENDERW PARSEW t p) = body RENDER PARSE t p.
Proof.
  destruct t; try reflexivity; cbn [body_w body].
  - rewrite fst_wbind. apply bind_cong; [|reflexivity]. apply mapW_erase, list_child_erase.
  - destruct (is_empty _); [reflexivity|]. rewrite fst_wbind. apply bind_cong; [apply HR|reflexivity].
  - rewrite fst_wbind. apply bind_cong; [apply HP|reflexivity].
  - destruct (row0_len rows); [|reflexivity]. destruct (negb _); [reflexivity|]. rewrite fst_wbind.
    apply bind_cong; [apply table_erase|reflexivity].
Qed.
Lemma parse_body_erase ts : fst (parse_body_w RENDERW PARSEW ts) = parse_body RENDER PARSE ts.
Proof.
  unfold parse_body_w, parse_body. rewrite fst_wbind. apply bind_cong; [|reflexivity]. generalize pinit.
  induction ts as [|t ts IH]; intros p; [reflexivity|]. cbn [parse_loop_w parse_loop]. rewrite fst_wbind.
  apply bind_cong; [apply body_erase|exact IH].
Qed.
End EraseParse.

Lemma work_erase f :
  (forall s ig, fst (lex_w f s ig) = lex f s ig) /\ (forall ts, fst (parse_w f ts) = parse f ts).
Proof.
  induction f as [|f [IHL IHP]]; [split; reflexivity|].
  assert (R : forall s ig, fst (wbind (lex_w f s ig) (parse_w f)) = bind (lex f s ig) (parse f)).
  { intros s ig. rewrite fst_wbind. apply bind_cong; auto. }
  split; intros; cbn [lex_w lex parse_w parse]; unfold charge; cbn [fst].
  - apply lex_loop_erase; auto.
  - apply parse_body_erase; auto.
Qed.
Theorem render_w_erase f s : fst (render_w f s) = render f s.
Proof. unfold render_w, render, render_ignore. rewrite fst_wbind. apply bind_cong; apply work_erase. Qed.

(** ** The bound *)
Definition has_pipe (s : str) : bool := contains_char c_pipe s.
(** What has been spent, and what is still to be spent on the result. *)
Definition tot {A} (pot : A -> nat) (m : work A) : nat :=
  snd m + match fst m with Ret a => pot a | _ => 0 end.
Lemma tot_bind {A B} (pot : B -> nat) (m : work A) (k : A -> work B) b :
  snd m <= b -> (forall a, fst m = Ret a -> snd m + tot pot (k a) <= b) -> tot pot (wbind m k) <= b.
Proof.
  intros H1 H2. unfold wbind, tot, charge in *. destruct (fst m) as [a| |]; cbn [fst snd]; [|lia|lia].
  specialize (H2 a eq_refl). lia.
Qed.
Lemma tot_snd {A} (pot : A -> nat) m : snd m <= tot pot m.
Proof. unfold tot. lia. Qed.
Lemma tot_map {A B} (pot : B -> nat) (f : A -> work B) (g : A -> nat) l :
  (forall x, In x l -> tot pot (f x) <= g x) -> tot (sums pot) (mapW f l) <= sums g l.
Proof.
  induction l as [|x l IH]; intros H; [unfold tot, sums; cbn; lia|]. cbn [mapW]. rewrite sums_cons.
  pose proof (H x (or_introl eq_refl)) as H1. specialize (IH (fun y I => H y (or_intror I))).
  pose proof (tot_snd pot (f x)). apply tot_bind; [lia|]. intros a E. unfold tot in H1. rewrite E in H1.
  assert (tot (sums pot) (wbind (mapW f l) (fun ys => free (Ret (a :: ys)))) <= pot a + sums g l); [|lia].
  pose proof (tot_snd (sums pot) (mapW f l)). apply tot_bind; [lia|]. intros ys E2. unfold tot in IH. rewrite E2 in IH.
  unfold tot. cbn [free fst snd]. rewrite sums_cons. lia.
Qed.
Lemma snd_bind {A B} (m : work A) (k : A -> work B) b :
  (forall a, snd (k a) = 0) -> snd m <= b -> snd (wbind m k) <= b.
Proof. intros H1 H2. unfold wbind, charge. destruct (fst m); cbn [snd]; try rewrite H1; lia. Qed.
Lemma snd_map {A B} (f : A -> work B) (g : A -> nat) l :
  (forall x, In x l -> snd (f x) <= g x) -> snd (mapW f l) <= sums g l.
Proof.
  intros H. etransitivity; [apply (tot_snd (sums (fun _ : B => 0)))|]. apply tot_map. intros x I. unfold tot.
  specialize (H x I). destruct (fst (f x)); lia.
Qed.

Section Bound.
Variables C0 C1 : nat.
Hypothesis HC0 : 100 <= C0.
Hypothesis HC1 : 64 * C0 + 20 <= C1.

Definition cc (x : str) : nat := (if has_gt x then C1 else C0) + (if has_pipe x then 4 else 0).
Definition tall (x : str) : nat := cc x * (length x * length x).
(** Bound for rendering [x]. *)
Definition rc (x : str) : nat := 2 + 2 * length x + tall x.
Definition ac (x : str) : nat := if made_up x then 80 else rc x.
Definition plainc (t : token) : nat := match t with Plaintext x => ac x | _ => 0 end.
(** Bound for the calls made when a token is printed. *)
Fixpoint pc (t : token) {struct t} : nat :=
  match t with
  | UnorderedListEntry toks => sums plainc toks
  | BlockQuote _ t => if is_empty t then 0 else rc (sanitize (trim_start_by (ceq c_sp) t))
  | Detail _ toks => 1 + length toks + sums pc toks
  | Table _ rows => sums (fun row => sums (fun c => match c with (_, toks) =>
      length toks * (1 + length toks + sums pc toks) end) row) rows
  | _ => 0
  end.

Lemma contains_infix c a b : infix a b -> contains_char c a = true -> contains_char c b = true.
Proof.
  intros I H. destruct (contains_char c b) eqn:E; [reflexivity|]. apply contains_char_false in E.
  rewrite <- H. symmetry. apply contains_char_false. intros K. apply E. eapply infix_In; eauto.
Qed.
Lemma cc_flags a b : (has_gt b = false -> has_gt a = false) -> (has_pipe b = false -> has_pipe a = false) -> cc a <= cc b.
Proof.
  unfold cc. intros H1 H2. destruct (has_gt b), (has_gt a), (has_pipe b), (has_pipe a);
    try (specialize (H1 eq_refl); discriminate); try (specialize (H2 eq_refl); discriminate); lia.
Qed.
Lemma cc_infix a b : infix a b -> cc a <= cc b.
Proof.
  intros I. apply cc_flags; intros H.
  - destruct (has_gt a) eqn:E; [|reflexivity]. unfold has_gt in *. rewrite (contains_infix _ _ _ I E) in H. discriminate.
  - destruct (has_pipe a) eqn:E; [|reflexivity]. unfold has_pipe in *. rewrite (contains_infix _ _ _ I E) in H. discriminate.
Qed.
Lemma sq_mono a b : a <= b -> a * a <= b * b.
Proof. intros. now apply Nat.mul_le_mono. Qed.
Lemma tall_le x c n : cc x <= c -> length x <= n -> tall x <= c * (n * n).
Proof. intros H1 H2. apply Nat.mul_le_mono; [exact H1|]. now apply sq_mono. Qed.
Lemma rc_infix a b : infix a b -> rc a <= rc b.
Proof.
  intros I. unfold rc. pose proof (infix_length _ _ I). pose proof (tall_le a _ _ (cc_infix _ _ I) H). unfold tall in *. lia.
Qed.

Section Parse.
Variable RENDER : str -> work str.
Variable PARSE : list token -> work str.
Hypothesis HR : forall x, snd (RENDER x) <= rc x.
Hypothesis HM : forall x, made_up x = true -> snd (RENDER x) <= 80.
Hypothesis HP : forall ts, snd (PARSE ts) <= 1 + length ts + sums pc ts.

Lemma list_child_paid t : snd (list_child_w RENDER t) <= plainc t.
Proof.
  destruct t; cbn [list_child_w plainc free snd]; try lia. unfold ac. destruct (made_up t) eqn:M.
  - pose proof (HM t M) as H. apply made_up_iff in M as [-> | ->];
      (destruct (starts_with _ _) eqn:E; [discriminate E|]; apply snd_bind; [reflexivity|exact H]).
  - destruct (starts_with _ _); (apply snd_bind; [reflexivity|]); (etransitivity; [apply HR|]); apply rc_infix.
    + eapply infix_trans; [apply infix_trim_start_by|apply infix_skipn].
    + apply infix_trim_start_by.
Qed.
Lemma body_paid t p : snd (body_w RENDER PARSE t p) <= pc t.
Proof.
  destruct t; cbn [body_w pc free snd]; try lia.
  - apply snd_bind; [reflexivity|]. apply snd_map. intros x _. apply list_child_paid.
  - destruct (is_empty _); [cbn; lia|]. apply snd_bind; [reflexivity|]. apply HR.
  - apply snd_bind; [reflexivity|]. apply HP.
  - destruct (row0_len rows); [|cbn; lia]. destruct (negb _); [cbn; lia|]. apply snd_bind; [reflexivity|].
    unfold table_html_w. apply snd_bind; [reflexivity|]. apply snd_map. intros row _. unfold row_html_w.
    apply snd_bind; [reflexivity|]. apply snd_map. intros [a toks] _. unfold cell_html_w. cbn [fst snd].
    apply snd_bind; [reflexivity|]. rewrite Nat.mul_comm, <- sums_const. apply snd_map.
    intros t _. destruct t; cbn [cell_token_w free snd]; try lia; apply HP.
Qed.
Lemma parse_paid ts : snd (parse_body_w RENDER PARSE ts) <= sums pc ts.
Proof.
  unfold parse_body_w. apply snd_bind; [reflexivity|]. generalize pinit.
  induction ts as [|t ts IH]; intros p; [unfold sums; cbn; lia|]. cbn [parse_loop_w]. rewrite sums_cons.
  unfold wbind, charge. pose proof (body_paid t (pre t p)). destruct (fst (body_w _ _ t _)) as [p'| |]; cbn [snd]; [|lia|lia].
  specialize (IH p'). lia.
Qed.
End Parse.

Section Lex.
Variable LEX : str -> list char -> work (list token).
Variable RENDER : str -> list char -> work str.
Variable LOOP : nat.
(** The text of the call. *)
Variable R : str.
Variable c : nat.
Hypothesis Hc : c = cc R.
Hypothesis HL : forall x ig, tot (sums pc) (LEX x ig) <= 1 + length x + tall x.
Hypothesis HM : forall x ig ts, fst (LEX x ig) = Ret ts -> snd (LEX x ig) + sums plainc ts <= 1 + 5 * length x + tall x.
Hypothesis HT : forall x ig ts, fst (LEX x ig) = Ret ts -> length ts <= length x.
Hypothesis HR : forall x ig, snd (RENDER x ig) <= rc x.

Lemma c_large : 100 <= c.
Proof. rewrite Hc. unfold cc. destruct (has_gt R), (has_pipe R); lia. Qed.

Lemma c_infix x : infix x R -> cc x <= c.
Proof. rewrite Hc. apply cc_infix. Qed.

(** What one token has cost and will cost is paid for by the characters it is made from. *)
Definition paid (r : str) (m : work lres) : Prop :=
  match fst m with
  | Ret (LOk t r') => length r' <= length r /\ (is_plain t = true -> snd m = 0) /\
      snd m + pc t <= c * ((length r - length r') * (length r - length r'))
  | Ret (LErr _ _) => snd m = 0
  | _ => snd m <= c * (length r * length r)
  end.
Lemma paid_free r t r' : length r' <= length r -> pc t = 0 -> paid r (free (Ret (LOk t r'))).
Proof. unfold paid. cbn [free fst snd]. intros H E. rewrite E. split; [exact H|split; [reflexivity|apply Nat.le_0_l]]. Qed.
Lemma paid_err r e r' : paid r (free (Ret (LErr e r'))).
Proof. reflexivity. Qed.
Lemma paid_panic r : paid r (free Panic).
Proof. unfold paid. cbn. lia. Qed.
Lemma paid_hang r : paid r (free Hang).
Proof. unfold paid. cbn. lia. Qed.
Lemma paid_call {A} (m : work A) (t : A -> token) r r' k :
  length r' + k <= length r -> (forall a, is_plain (t a) = false) ->
  snd m <= c * (k * k) -> (forall a, fst m = Ret a -> snd m + pc (t a) <= c * (k * k)) ->
  paid r (wbind m (fun a => free (Ret (LOk (t a) r')))).
Proof.
  intros HK NP HS HA.
  assert (G : forall n, k <= n -> c * (k * k) <= c * (n * n)) by (intros n L; apply Nat.mul_le_mono_l, sq_mono, L).
  unfold paid, wbind, charge. destruct (fst m) as [a| |]; cbn [free fst snd].
  - split; [lia|]. split; [intros X; rewrite NP in X; discriminate X|]. specialize (HA a eq_refl).
    pose proof (G (length r - length r') ltac:(lia)). lia.
  - pose proof (G (length r) ltac:(lia)). lia.
  - pose proof (G (length r) ltac:(lia)). lia.
Qed.

(** Arithmetic of the cases. *)
Lemma room a n k : a + n * n * c <= k * k * c -> a + c * (n * n) <= c * (k * k).
Proof. lia. Qed.
Lemma step_up k : 100 * (1 + k) + c * (k * k) <= c * (S k * S k).
Proof. pose proof c_large. nia. Qed.
Lemma step_up' n k : n < k -> 100 * k + c * (n * n) <= c * (k * k).
Proof.
  intros H. destruct k as [|k]; [lia|]. pose proof (step_up k).
  assert (c * (n * n) <= c * (k * k)) by (apply Nat.mul_le_mono_l, sq_mono; lia). lia.
Qed.

Lemma heading_paid r : (exists r0, r = c_hash :: r0) -> suffix r R -> paid r (lex_heading_w RENDER r).
Proof.
  intros [r0 Er] S0. unfold lex_heading_w, consume_while.
  assert (L1 : 1 <= length (take_while (ceq c_hash) r)) by (subst r; cbn; lia).
  pose proof (suffix_drop_while (ceq c_hash) r) as S1.
  pose proof (len_take_drop (ceq c_hash) r) as L2. clear Er r0.
  set (h := take_while (ceq c_hash) r) in *. set (r1 := drop_while (ceq c_hash) r) in *.
  clearbody h r1.
  destruct (6 <? length h); [apply paid_err|].
  destruct (heading_sep r1) as [r2|] eqn:E; [|apply paid_err].
  pose proof (heading_sep_len _ _ E) as L3. pose proof (heading_sep_suffix _ _ E) as S2.
  pose proof (len_take_drop not_nl r2) as L6.
  destruct (heading_id (take_while not_nl r2)) as [line|] eqn:E2; [|apply paid_panic].
  apply heading_id_infix in E2. pose proof (infix_length _ _ E2) as L4.
  destruct (forallb (ceq c_hash) line); [apply paid_free; [lia|reflexivity]|].
  set (x := trim_end_by is_sp_tab (heading_trailing line)).
  assert (IX : infix x line).
  { subst x. eapply infix_trans; [apply infix_trim_end_by|]. apply heading_trailing_infix. }
  pose proof (infix_length _ _ IX) as L5. clearbody x.
  assert (cc x <= c) as CX.
  { apply c_infix. eapply infix_trans; [exact IX|]. eapply infix_trans; [exact E2|].
    eapply infix_trans; [apply infix_take_while|]. apply suffix_infix.
    eapply suffix_trans; [exact S2|]. eapply suffix_trans; eauto. }
  pose proof (HR x [c_hash]) as W. unfold rc in W. pose proof (tall_le x c _ CX (le_n _)) as T.
  pose proof (step_up' (length x) (S (length x)) ltac:(lia)) as U.
  apply paid_call with (t := fun html => Header (length h) (heading_unwrap html) None) (k := S (length x)).
  - lia.
  - reflexivity.
  - lia.
  - intros a _. cbn [pc]. lia.
Qed.

Lemma sums_ac toks :
  Forall (fun t => is_plain t = true) toks -> (forall x, In (Plaintext x) toks -> cc x <= c) ->
  sums plainc toks <= 80 * length toks + 2 * sums plain_size toks + c * (sums plain_size toks * sums plain_size toks).
Proof.
  induction toks as [|t toks IH]; intros F H; [unfold sums; cbn; lia|]. apply Forall_cons_iff in F as [P F'].
  specialize (IH F' (fun x I => H x (or_intror I))). rewrite !sums_cons. cbn [length].
  destruct t; try discriminate P. cbn [plainc plain_size]. specialize (H t (or_introl eq_refl)).
  assert (ac t <= 80 + 2 * weight t + c * (weight t * weight t)) as A.
  { unfold ac, weight. destruct (made_up t); [lia|]. unfold rc. pose proof (tall_le t c _ H (le_n _)). lia. }
  set (a := weight t) in *. set (b := sums plain_size toks) in *. set (s := sums plainc toks) in *. clearbody a b s. nia.
Qed.
Lemma list_paragraphs_infix n : forall r toks r', list_paragraphs n r = Some (toks, r') ->
  forall x, In (Plaintext x) toks -> infix x r.
Proof.
  induction n as [|n IH]; intros r toks r'; [easy|]. cbn [list_paragraphs]. destruct (ahead_is _ r) eqn:A.
  - unfold consume_while. destruct (list_paragraphs n _) as [[ts r2]|] eqn:E; [|easy].
    injection 1 as <- <-. unfold ahead_is in A. apply starts_with_iff in A as [y ->]. cbn [app next tl] in *.
    assert (infix y (c_nl :: c_nl :: c_tab :: y)) as Y by (exists [c_nl; c_nl; c_tab], []; now rewrite app_nil_r).
    intros x [X|X].
    + injection X as <-. eapply infix_trans; [apply infix_take_while|exact Y].
    + eapply infix_trans; [eapply IH; eauto|]. eapply infix_trans; [|exact Y]. apply suffix_infix, suffix_drop_while.
  - injection 1 as <- <-. now intros x [].
Qed.

Lemma list_item_paid line toks r4 r :
  1 <= length toks -> Forall (fun t => is_plain t = true) toks -> (forall x, In (Plaintext x) toks -> cc x <= c) ->
  suffix r4 R -> length r4 <= length r ->
  length toks + sums plain_size toks + length r4 <= length r ->
  paid r (list_item_w LEX line toks r4).
Proof.
  intros L1 F HF S4 LR LT. unfold list_item_w.
  pose proof (sums_ac toks F HF) as A. set (n := sums plain_size toks) in *.
  assert (Z : paid r (free (Ret (LOk (UnorderedListEntry toks) r4)))).
  { unfold paid. cbn [free fst snd pc]. split; [lia|]. split; [reflexivity|].
    pose proof (step_up' n (length r - length r4) ltac:(lia)). lia. }
  destruct (starts_with _ line); [now apply paid_free|].
  destruct (_ || _); [now apply paid_free|].
  destruct (peek_line_ahead r4) as [pl|]; [|exact Z].
  unfold consume_line_ahead.
  destruct (split_line r4) as [sub r5] eqn:E. pose proof (len_split_line _ _ _ E) as LS.
  apply split_line_app in E.
  assert (Y : forall x, infix x sub -> paid r (wbind (LEX x []) (fun subtoks => free (Ret (LOk (UnorderedListEntry (toks ++ subtoks)) r5))))).
  { intros x I. pose proof (infix_length _ _ I) as LX.
    assert (cc x <= c) as CX.
    { apply c_infix. eapply infix_trans; [exact I|]. eapply infix_trans; [|apply suffix_infix; exact S4].
      rewrite E. now exists [], r5. }
    pose proof (tall_le x c _ CX (le_n _)) as T.
    pose proof (step_up' (n + length x) (length toks + n + length x) ltac:(lia)) as U.
    assert (c * (n * n) + c * (length x * length x) <= c * ((n + length x) * (n + length x))) as V.
    { rewrite <- Nat.mul_add_distr_l. apply Nat.mul_le_mono_l. nia. }
    apply paid_call with (t := fun st => UnorderedListEntry (toks ++ st)) (k := length toks + n + length x).
    - lia.
    - reflexivity.
    - pose proof (HL x []) as W. pose proof (tot_snd (sums pc) (LEX x [])). lia.
    - intros ts Q. cbn [pc]. rewrite sums_app. pose proof (HM x [] ts Q). lia. }
  destruct (starts_with _ pl); [apply Y, infix_refl|].
  destruct (starts_with _ pl); [apply Y, infix_skipn|]. exact Z.
Qed.

Lemma plus_minus_paid ch r0 : ceq ch c_minus || ceq ch c_plus = true -> suffix (ch :: r0) R ->
  paid (ch :: r0) (lex_plus_minus_w LEX (ch :: r0)).
Proof.
  intros Hch S0. unfold lex_plus_minus_w, consume_while.
  set (f := fun c => ceq c c_minus || ceq c c_plus). set (r := ch :: r0) in *.
  assert (L1 : 1 <= length (take_while f r)).
  { subst r. cbn [take_while]. unfold f at 1. rewrite Hch. cbn. lia. }
  pose proof (len_take_drop f r) as L2. pose proof (suffix_drop_while f r) as S1.
  set (s := take_while f r) in *. set (r1 := drop_while f r) in *. clearbody s r1 r.
  destruct (length s) as [|[|[|k]]] eqn:LS; [lia | | apply paid_err | apply paid_free; [lia|reflexivity]].
  pose proof (len_take_drop not_nl r1) as L3. pose proof (suffix_drop_while not_nl r1) as S2.
  pose proof (infix_take_while not_nl r1) as I1.
  set (first := take_while not_nl r1) in *. set (r2 := drop_while not_nl r1) in *.
  clearbody first r2.
  destruct (list_paragraphs _ r2) as [[more r3]|] eqn:E; [|apply paid_hang].
  pose proof (list_paragraphs_suffix _ _ _ _ E) as S3.
  pose proof (list_paragraphs_infix _ _ _ _ E) as I2.
  apply list_paragraphs_size in E as [F L4]. pose proof (suffix_length _ _ S3).
  pose proof (len_skip_if_eq c_nl r3). pose proof (weight_length first).
  assert (suffix r1 R) as T1 by (eapply suffix_trans; eauto).
  apply list_item_paid.
  - cbn. lia.
  - now constructor.
  - intros x [X|X].
    + injection X as <-. apply c_infix. eapply infix_trans; [exact I1|]. now apply suffix_infix.
    + apply c_infix. eapply infix_trans; [apply I2; exact X|]. apply suffix_infix. eapply suffix_trans; eauto.
  - eapply suffix_trans; [apply skip_if_eq_suffix|]. eapply suffix_trans; [exact S3|]. eapply suffix_trans; eauto.
  - lia.
  - rewrite sums_cons. cbn [length plain_size]. lia.
Qed.

(** The functions without calls. *)
Definition no_lex : str -> list char -> res (list token) := fun _ _ => Hang.
Definition no_render : str -> list char -> res str := fun _ _ => Hang.
Definition calm (t : token) : bool :=
  match t with UnorderedListEntry _ | Detail _ _ | BlockQuote _ _ | Table _ _ => false | _ => true end.
Definition calm_l (l : lres) : bool := match l with LOk t _ => calm t | LErr _ _ => true end.
Lemma paid_calm r l : size_ok no_lex no_render r l -> calm_l l = true -> paid r (free (Ret l)).
Proof.
  destruct l as [t r'|e r']; [|reflexivity]. intros [H _] K. apply paid_free; [exact H|].
  destruct t; now cbn in K |- *.
Qed.
Lemma paid_calm_res r (m : res lres) : (forall l, m = Ret l -> size_ok no_lex no_render r l) ->
  (forall l, m = Ret l -> calm_l l = true) -> paid r (free m).
Proof.
  intros H K. destruct m as [l| |]; [|apply paid_panic|apply paid_hang].
  apply paid_calm; [now apply H|now apply K].
Qed.
Ltac crush := repeat match goal with |- context [match ?x with _ => _ end] => destruct x end; try reflexivity.

Lemma newlines_calm r : calm_l (lex_newlines r) = true.
Proof. unfold lex_newlines, consume_while. crush. Qed.
Lemma tabs_spaces_calm last r l : lex_tabs_spaces last r = Ret l -> calm_l l = true.
Proof.
  unfold lex_tabs_spaces. destruct (length r) as [|n]; [discriminate|]. cbn [lex_tabs_spaces_go]. unfold consume_while.
  repeat match goal with |- context [if ?x then _ else _] => destruct x end;
    repeat (destruct (consume_until_tail_is _ _);
      repeat match goal with |- context [if ?x then _ else _] => destruct x end);
    try (now injection 1 as <-).
  destruct (lex_tabs_spaces_go _ _ _) as [[[]|]|]; try discriminate; now injection 1 as <-.
Qed.
Lemma numbers_calm r l : lex_numbers r = Ret l -> calm_l l = true.
Proof.
  unfold lex_numbers, consume_while.
  repeat match goal with |- context [match ?x with _ => _ end] => destruct x end; try discriminate; now injection 1 as <-.
Qed.
Lemma tilde_calm r : calm_l (lex_tilde r) = true.
Proof. unfold lex_tilde, consume_while. crush. Qed.
Lemma backticks_calm r : calm_l (lex_backticks r) = true.
Proof. unfold lex_backticks, consume_while. crush. Qed.
Lemma links_calm r l : lex_links r = Ret l -> calm_l l = true.
Proof.
  unfold lex_links, lex_footnote, lex_link_dest, consume_while.
  repeat match goal with |- context [match ?x with _ => _ end] => destruct x end; try discriminate; now injection 1 as <-.
Qed.
Lemma images_calm r l : lex_images r = Ret l -> calm_l l = true.
Proof.
  unfold lex_images. destruct (next_if_eq _ _); [|now injection 1 as <-].
  destruct (lex_links _) as [k| |]; cbn [bind]; try easy.
  repeat match goal with |- context [match ?x with _ => _ end] => destruct x end; now injection 1 as <-.
Qed.
Lemma escaped_calm r : calm_l (lex_escaped_character r) = true.
Proof. unfold lex_escaped_character, consume_while. crush. Qed.

Lemma asterisk_paid r : suffix r R -> paid r (free (Ret (lex_asterisk_underscore r))).
Proof.
  intros S0. pose proof (lex_asterisk_size no_lex no_render r) as Z. revert Z.
  unfold lex_asterisk_underscore, consume_while. set (f := fun c => ceq c c_star || ceq c c_under || ceq c c_tab).
  pose proof (len_take_drop f r) as L2. pose proof (suffix_drop_while f r) as S1.
  set (s := take_while f r) in *. set (r1 := drop_while f r) in *. clearbody s r1.
  destruct (if length s =? 1 then next_if_eq c_sp r1 else None) as [r2|] eqn:E.
  - intros _. destruct (length s =? 1) eqn:L; [|discriminate E]. apply Nat.eqb_eq in L.
    pose proof (len_next_if_eq _ _ _ E) as L3. apply next_if_eq_some in E.
    pose proof (len_take_drop not_nl r2) as L4. pose proof (len_next (drop_while not_nl r2)).
    assert (infix (take_while not_nl r2) R) as IX.
    { eapply infix_trans; [apply infix_take_while|]. apply suffix_infix. eapply suffix_trans; [|exact S0].
      eapply suffix_trans; [|exact S1]. rewrite E. apply suffix_cons. }
    set (x := take_while not_nl r2) in *. set (r3 := drop_while not_nl r2) in *. clearbody x r3.
    unfold paid. cbn [free fst snd pc]. split; [lia|]. split; [reflexivity|].
    assert (forall y, In (Plaintext y) [Plaintext x] -> cc y <= c) as CY
      by (intros y [Y|[]]; injection Y as <-; now apply c_infix).
    pose proof (sums_ac [Plaintext x] ltac:(repeat constructor) CY) as A.
    rewrite !sums_cons in *. unfold sums in *. cbn [map sum fold_right plain_size length] in *.
    pose proof (weight_length x) as W.
    pose proof (step_up' (weight x) (length r - length (next r3)) ltac:(lia)).
    rewrite !Nat.add_0_r in A. lia.
  - intros Z. apply paid_calm; [exact Z|]. unfold lex_strong, consume_while. crush.
Qed.

Lemma sanitize_no_gt x : has_gt (sanitize x) = false.
Proof. apply contains_char_false. intros J. now apply sanitize_no_special in J. Qed.
Lemma sanitize_no_pipe x : has_pipe (sanitize x) = false.
Proof. apply contains_char_false. intros J. now apply sanitize_no_special in J. Qed.
Lemma blockquotes_paid r0 : suffix (c_gt :: r0) R -> paid (c_gt :: r0) (free (Ret (lex_blockquotes (c_gt :: r0)))).
Proof.
  intros S0. pose proof (lex_blockquotes_size no_lex no_render r0) as Z.
  assert (C1 <= c) as CB.
  { rewrite Hc. unfold cc. replace (has_gt R) with true; [destruct (has_pipe R); lia|]. symmetry.
    unfold has_gt. apply contains_infix with (a := c_gt :: r0); [now apply suffix_infix|]. reflexivity. }
  destruct (lex_blockquotes (c_gt :: r0)) as [t r'|e r'] eqn:E; [|reflexivity]. cbn [size_ok] in Z.
  set (r := c_gt :: r0) in *. assert (exists l x, t = BlockQuote l x) as (l & x & ->).
  { revert E. unfold lex_blockquotes, consume_while.
    repeat match goal with |- context [match ?x with _ => _ end] => destruct x end; try discriminate; injection 1 as <- <-; eauto. }
  destruct Z as [L Z]. unfold paid. cbn [free fst snd pc]. split; [exact L|]. split; [reflexivity|].
  assert (1 + length x <= length r - length r') as K1 by (clear - Z; inversion Z as [? Q| | | | ? ? K1 K2 | |]; [discriminate Q|exact K1]).
  set (k := length r - length r') in *. clearbody k.
  assert (rc (sanitize (trim_start_by (ceq c_sp) x)) <= 2 + 16 * length x + 64 * C0 * (length x * length x)) as A.
  { pose proof (infix_length _ _ (infix_trim_start_by (ceq c_sp) x)) as LT. set (y := trim_start_by _ x) in *. clearbody y.
    pose proof (sanitize_length y) as LS. unfold rc, tall, cc.
    rewrite sanitize_no_gt, sanitize_no_pipe. set (n := length (sanitize y)) in *. clearbody n.
    assert (n <= 8 * length x) by lia. pose proof (sq_mono _ _ H). nia. }
  set (n := length x) in *. clearbody n.
  assert (n * n + 2 * n + 1 <= k * k) as B by (pose proof (sq_mono (1 + n) k K1); nia).
  destruct (is_empty x); [lia|]. assert (C1 * (k * k) <= c * (k * k)) by (now apply Nat.mul_le_mono_r).
  assert (C1 * (n * n + 2 * n + 1) <= C1 * (k * k)) by (now apply Nat.mul_le_mono_l).
  assert ((64 * C0 + 20) * (n * n + 2 * n + 1) <= C1 * (n * n + 2 * n + 1)) by (now apply Nat.mul_le_mono_r).
  nia.
Qed.

Lemma details_paid r r0 : length r < length r0 -> suffix r R -> paid r0 (parse_details_w LEX LOOP r).
Proof.
  intros LR S0. unfold parse_details_w, consume_while. set (f := fun c => _).
  pose proof (len_take_drop f r) as L1. pose proof (suffix_drop_while f r) as S1.
  pose proof (len_skip_if_eq c_cr (drop_while f r)) as L2.
  pose proof (skip_if_eq_suffix c_cr (drop_while f r)) as S2.
  set (sm := take_while f r) in *. set (r2 := skip_if_eq c_cr (drop_while f r)) in *.
  set (r1 := drop_while f r) in *. clearbody sm r2 r1.
  destruct (_ || _); [apply paid_err|].
  destruct (strip_prefix _ sm) as [s1|] eqn:E; [|apply paid_panic].
  destruct (consume_until_tail_is _ r2) as [t0 r3] eqn:ET.
  pose proof (len_until _ _ _ _ ET) as L4. apply consume_until_tail_app in ET.
  destruct (if contains _ t0 then _ else _) as [[text r4]|] eqn:EL; [|apply paid_hang].
  assert (infix text r2 /\ length text + length r4 <= length r2) as [OX L5].
  { assert (infix t0 r2) as I0 by (rewrite ET; now exists [], r3).
    destruct (contains _ t0).
    - pose proof (details_loop_len _ _ _ _ _ _ EL ltac:(lia) ltac:(lia)).
      apply details_loop_suffix in EL as [_ [->|X]]; auto.
    - injection EL as <- <-. split; [auto | lia]. }
  pose proof (infix_length _ _ (infix_or_empty_suffix (lit "</details>") text)) as L6.
  assert (infix (or_empty (strip_suffix (lit "</details>") text)) R) as IX.
  { eapply infix_trans; [apply infix_or_empty_suffix|]. eapply infix_trans; [exact OX|].
    apply suffix_infix. eapply suffix_trans; [exact S2|]. eapply suffix_trans; eauto. }
  set (x := or_empty _) in *. clearbody x.
  pose proof (tall_le x c _ (c_infix _ IX) (le_n _)) as T.
  pose proof (step_up' (length x) (S (length x)) ltac:(lia)) as U.
  pose proof (HL x []) as W. pose proof (tot_snd (sums pc) (LEX x [])) as W2.
  apply paid_call with (t := fun toks => Detail (or_empty (strip_suffix (lit "</summary>") s1)) toks) (k := S (length x)).
  - lia.
  - reflexivity.
  - lia.
  - intros ts Q. cbn [pc]. pose proof (HT x [] ts Q). unfold tot in W. rewrite Q in W. lia.
Qed.

Lemma carrot_paid r : suffix r R -> paid r (lex_side_carrot_w LEX LOOP r).
Proof.
  intros S0. unfold lex_side_carrot_w, consume_while. destruct (next_if_eq c_lt r) as [r1|] eqn:E1; [|apply paid_err].
  pose proof (len_next_if_eq _ _ _ E1) as L0. apply next_if_eq_some in E1.
  set (f := fun c => _). pose proof (len_take_drop f r1) as L1.
  pose proof (suffix_drop_while f r1) as S1.
  set (s := take_while f r1) in *. set (r2 := drop_while f r1) in *. clearbody s r2.
  destruct (next_if_eq c_gt r2) as [r3|] eqn:E3; [|apply paid_err].
  pose proof (len_next_if_eq _ _ _ E3) as L3. apply next_if_eq_some in E3.
  destruct (str_eqb s _).
  { destruct (next_if_eq c_nl (skip_if_eq c_cr r3)) as [r5|] eqn:E5; [|apply paid_err].
    pose proof (len_next_if_eq _ _ _ E5) as L5. pose proof (len_skip_if_eq c_cr r3).
    apply next_if_eq_some in E5. apply details_paid; [lia|]. eapply suffix_trans; [|exact S0].
    apply suffix_trans with (skip_if_eq c_cr r3); [rewrite E5; apply suffix_cons|].
    eapply suffix_trans; [apply skip_if_eq_suffix|].
    apply suffix_trans with r2; [rewrite E3; apply suffix_cons|].
    eapply suffix_trans; [exact S1|]. rewrite E1. apply suffix_cons. }
  destruct s as [|d s'] eqn:ES; [apply paid_err|].
  destruct (existsb _ _); [apply paid_err|].
  destruct (validate_link (d :: s')) as [[u [sch|]]|e]; [|apply paid_err|apply paid_err].
  apply paid_free; [lia|reflexivity].
Qed.

(** Tables *)
Lemma filter_le {A} (p : A -> bool) l : length (filter p l) <= length l.
Proof. induction l as [|x l IH]; [reflexivity|]. cbn [filter]. destruct (p x); cbn [length]; lia. Qed.
Lemma sums_map {A B} (f : B -> nat) (g : A -> B) l : sums f (map g l) = sums (fun x => f (g x)) l.
Proof. unfold sums. now rewrite map_map. Qed.
Lemma split_go_no_pipe acc s x : ~ In c_pipe acc -> In x (split_go [c_pipe] 0 acc s) -> ~ In c_pipe x.
Proof.
  revert acc; induction s as [|d s IH]; intros acc A; cbn [split_go].
  - intros [<-|[]]. now rewrite <- in_rev.
  - destruct (starts_with [c_pipe] (d :: s)) eqn:E.
    + intros [<-|H]; [now rewrite <- in_rev|]. eapply IH; [|exact H]. easy.
    + intros H. eapply IH; [|exact H]. intros [->|J]; [|contradiction].
      cbn [starts_with] in E. rewrite ceq_refl in E. discriminate E.
Qed.
Lemma cells_no_pipe l x : In x (cells l) -> has_pipe x = false.
Proof.
  unfold cells. rewrite in_map_iff. intros (y & <- & I). apply filter_In in I as [I _].
  apply contains_char_false. intros J. apply (split_go_no_pipe [] l y (fun F => F) I). eapply infix_In; [apply infix_trim|exact J].
Qed.
Definition cellc (toks : list token) : nat := length toks * (1 + length toks + sums pc toks).
Lemma cell_paid e : infix e R -> has_pipe R = true -> has_pipe e = false ->
  tot cellc (wbind (LEX e []) (fun toks => free (Ret (filter is_usable_in_table toks)))) <=
  1 + 2 * length e + (c - 3) * (length e * length e).
Proof.
  intros I P N. pose proof (HL e []) as W. pose proof (tot_snd (sums pc) (LEX e [])) as W2.
  assert (tall e <= (c - 4) * (length e * length e)) as T.
  { unfold tall. apply Nat.mul_le_mono_r. rewrite Hc. unfold cc. rewrite N, P.
    destruct (has_gt e) eqn:G; [|destruct (has_gt R); lia].
    unfold has_gt in *. rewrite (contains_infix _ _ _ I G). lia. }
  pose proof c_large as CL. set (d := c - 4) in *. replace (c - 3) with (d + 1) by lia. clearbody d.
  apply tot_bind; [lia|]. intros toks Q. pose proof (HT e [] toks Q) as LT. unfold tot in W. rewrite Q in W.
  unfold tot. cbn [free fst snd]. unfold cellc.
  assert (sums pc (filter is_usable_in_table toks) = 0) as Z.
  { clear. induction toks as [|t toks IH]; [reflexivity|]. cbn [filter].
    destruct (is_usable_in_table t) eqn:U; [|exact IH]. rewrite sums_cons, IH. destruct t; try discriminate U; reflexivity. }
  rewrite Z. pose proof (filter_le is_usable_in_table toks) as LF.
  set (n := length (filter _ toks)) in *. clearbody n. set (m := length e) in *. clearbody m.
  assert (n <= m) as NM by lia. pose proof (Nat.mul_le_mono n m (1 + n) (1 + m) NM ltac:(lia)). nia.
Qed.
Lemma sq_sums {A} (f : A -> nat) a d (l : list A) :
  sums (fun x => a * f x + d * (f x * f x)) l <= a * sums f l + d * (sums f l * sums f l).
Proof.
  induction l as [|x l IH]; [unfold sums; cbn; lia|]. rewrite !sums_cons.
  set (u := sums _ l) in *. set (v := sums f l) in *. set (w := f x). clearbody u v w. nia.
Qed.
Definition rowc (row : list (alignment * list token)) : nat :=
  sums (fun c => match c with (_, toks) => length toks * (1 + length toks + sums pc toks) end) row.
Lemma rowc_combine al cs : rowc (combine al cs) <= sums cellc cs.
Proof.
  revert cs; induction al as [|a al IH]; intros [|x cs]; cbn [combine]; try (unfold rowc, sums; cbn; lia).
  unfold rowc in *. rewrite !sums_cons. specialize (IH cs). unfold cellc at 1. lia.
Qed.
Lemma row_paid l al : infix l R -> has_pipe R = true ->
  tot rowc (wbind (lex_row_w LEX l) (fun cs => free (Ret (combine al cs)))) <=
  3 * length l + (c - 3) * (length l * length l).
Proof.
  intros I P.
  assert (tot (sums cellc) (lex_row_w LEX l) <= 3 * length l + (c - 3) * (length l * length l)) as A.
  { unfold lex_row_w. etransitivity.
    - apply tot_map. intros e J. apply (cell_paid e); [|exact P|].
      + eapply infix_trans; [apply cells_infix; exact J|exact I].
      + eapply cells_no_pipe; exact J.
    - unfold cells. rewrite sums_map.
      etransitivity; [apply (sums_le _ (fun p : str => 3 * length p + (c - 3) * (length p * length p)))|].
      + intros p J. apply filter_In in J as [_ J]. pose proof (len_trim p) as LT.
        assert (1 <= length p) by (destruct p; [discriminate J|cbn; lia]).
        pose proof (sq_mono _ _ LT). set (d := c - 3). clearbody d.
        pose proof (Nat.mul_le_mono_l _ _ d H0). lia.
      + etransitivity; [apply sums_filter|]. etransitivity; [apply (sq_sums (fun p : str => length p))|].
        destruct (split_size [c_pipe] l) as [B _]. pose proof (sq_mono _ _ B) as B2.
        pose proof (Nat.mul_le_mono_l _ _ (c - 3) B2). lia. }
  pose proof (tot_snd (sums cellc) (lex_row_w LEX l)). apply tot_bind; [lia|]. intros cs Q.
  unfold tot in A. rewrite Q in A. unfold tot. cbn [free fst snd]. pose proof (rowc_combine al cs). lia.
Qed.
Lemma pipes_paid r0 : suffix (c_pipe :: r0) R -> paid (c_pipe :: r0) (lex_pipes_w LEX (c_pipe :: r0)).
Proof.
  intros S0. assert (has_pipe R = true) as P.
  { unfold has_pipe. apply contains_infix with (a := c_pipe :: r0); [now apply suffix_infix|]. reflexivity. }
  unfold lex_pipes_w. set (r := c_pipe :: r0) in *.
  destruct (table_lines (S (length r)) r) as [[lines r1]|] eqn:E; [|apply paid_hang].
  pose proof (table_lines_size _ _ _ _ E) as L. apply table_lines_ok in E as (_ & F).
  destruct lines as [|hd [|al bd]]; try apply paid_err.
  destruct (_ <? 3); [apply paid_err|]. destruct (negb _); [apply paid_err|].
  rewrite !sums_cons in L. set (k := sums (fun l : str => 1 + length l) bd).
  change (sums (fun l : list char => 1 + length l) bd) with k in L.
  assert (tot (sums rowc) (mapW (fun l => wbind (lex_row_w LEX l)
    (fun cs => free (Ret (combine (map cell_alignment (cells al)) cs)))) bd) <= c * (k * k)) as A.
  { etransitivity.
    - apply tot_map. intros l J. apply row_paid; [|exact P]. apply Forall_cons_iff in F as [_ F].
      apply Forall_cons_iff in F as [_ F]. rewrite Forall_forall in F. destruct (F l J) as (q & S1 & I).
      eapply infix_trans; [exact I|]. eapply infix_trans; [|apply suffix_infix; exact S0].
      now apply suffix_infix, ssuffix_suffix.
    - etransitivity; [apply (sq_sums (fun l : str => length l))|].
      assert (sums (fun l : str => length l) bd <= k) as B by (apply sums_le; intros; lia).
      pose proof (sq_mono _ _ B) as B2. pose proof (Nat.mul_le_mono_l _ _ (c - 3) B2) as B3.
      pose proof c_large. replace c with (3 + (c - 3)) at 2 by lia. set (d := c - 3) in *. clearbody d.
      assert (3 * sums (fun l : str => length l) bd <= 3 * (k * k)) by nia. lia. }
  apply paid_call with (t := fun rows => Table (combine (map cell_alignment (cells al)) (cells hd)) rows) (k := k).
  - lia.
  - reflexivity.
  - pose proof (tot_snd (sums rowc) (mapW (fun l => wbind (lex_row_w LEX l)
      (fun cs => free (Ret (combine (map cell_alignment (cells al)) cs)))) bd)). lia.
  - intros rows Q. unfold tot in A. rewrite Q in A. exact A.
Qed.

Lemma dispatch_paid ignore last ch r0 : suffix (ch :: r0) R ->
  paid (ch :: r0) (dispatch_w LEX RENDER LOOP ignore last ch (ch :: r0)).
Proof.
  intros S0. unfold dispatch_w.
  destruct (ceq ch c_hash && _) eqn:E1.
  { apply andb_true_iff in E1 as [E1 _]. apply ceq_eq in E1 as ->. apply heading_paid; eauto. }
  destruct (ceq ch c_nl). { apply paid_calm; [apply lex_newlines_size|apply newlines_calm]. }
  destruct (ceq ch c_sp || ceq ch c_tab). { apply paid_calm_res; [apply lex_tabs_spaces_size|apply tabs_spaces_calm]. }
  destruct (is_digit ch). { apply paid_calm_res; [apply lex_numbers_size|apply numbers_calm]. }
  destruct (ceq ch c_star || _). { now apply asterisk_paid. }
  destruct (ceq ch c_minus || _) eqn:E6. { now apply plus_minus_paid. }
  destruct (ceq ch c_gt) eqn:E7. { apply ceq_eq in E7 as ->. now apply blockquotes_paid. }
  destruct (ceq ch c_tilde). { apply paid_calm; [apply lex_tilde_size|apply tilde_calm]. }
  destruct (ceq ch c_tick). { apply paid_calm; [apply lex_backticks_size|apply backticks_calm]. }
  destruct (ceq ch c_lbrk). { apply paid_calm_res; [apply lex_links_size|apply links_calm]. }
  destruct (ceq ch c_bang). { apply paid_calm_res; [apply lex_images_size|apply images_calm]. }
  destruct (ceq ch c_lt). { now apply carrot_paid. }
  destruct (ceq ch c_pipe) eqn:E8. { apply ceq_eq in E8 as ->. now apply pipes_paid. }
  destruct (ceq ch c_bslash). { apply paid_calm; [apply lex_escaped_size|apply escaped_calm]. }
  apply paid_free; [cbn; lia|reflexivity].
Qed.

(** The loop of [Parser::lex]. *)
Lemma token_paid ig last r : suffix r R ->
  match fst (next_token_w LEX RENDER LOOP ig last r) with
  | Ret (Some (t, r')) => length r' < length r /\ suffix r' r /\
      plain_size t <= length r - length r' /\
      (is_plain t = true -> snd (next_token_w LEX RENDER LOOP ig last r) = 0) /\
      snd (next_token_w LEX RENDER LOOP ig last r) + pc t <= c * ((length r - length r') * (length r - length r'))
  | _ => snd (next_token_w LEX RENDER LOOP ig last r) <= c * (length r * length r)
  end.
Proof.
  intros S0. set (LX := fun x i => fst (LEX x i)). set (RX := fun x i => fst (RENDER x i)).
  pose proof (next_token_erase LEX RENDER LOOP LX RX (fun _ _ => eq_refl) (fun _ _ => eq_refl) ig last r) as E.
  destruct r as [|ch r0]; [cbn; lia|].
  assert (forall t r', fst (next_token_w LEX RENDER LOOP ig last (ch :: r0)) = Ret (Some (t, r')) ->
    length r' < length (ch :: r0) /\ suffix r' (ch :: r0) /\ plain_size t <= length (ch :: r0) - length r') as G.
  { intros t r' Q. rewrite E in Q. pose proof (next_token_progress _ _ _ _ _ _ _ _ Q) as P.
    apply next_token_size in Q as [Q1 Q2]. split; [exact Q1|]. split; [now apply ssuffix_suffix|].
    clear - Q2. destruct t; cbn [plain_size]; try lia. inversion Q2. assumption. }
  pose proof (dispatch_paid ig last ch r0 S0) as D. unfold paid in D. revert G D. clear E.
  unfold next_token_w, wbind, charge. destruct (fst (dispatch_w _ _ _ _ _ _ _)) as [[t r'|e r']| |]; cbn [free fst snd]; intros G D.
  - destruct (G t r' eq_refl) as (G1 & G2 & G3). destruct D as (_ & D1 & D2). rewrite Nat.add_0_r. auto.
  - destruct (G (Plaintext e) r' eq_refl) as (G1 & G2 & G3). rewrite D. cbn [pc]. repeat split; auto. apply Nat.le_0_l.
  - exact D.
  - exact D.
Qed.
Lemma sq_split a b : a * a + b * b <= (a + b) * (a + b).
Proof. nia. Qed.
Lemma loop_paid n : forall ig last r, suffix r R ->
  tot (sums pc) (lex_loop_w LEX RENDER LOOP n ig last r) <= c * (length r * length r) /\
  forall ts, fst (lex_loop_w LEX RENDER LOOP n ig last r) = Ret ts -> (forall x, In (Plaintext x) ts -> cc x <= c) ->
  snd (lex_loop_w LEX RENDER LOOP n ig last r) + sums plainc ts <= 4 * length r + c * (length r * length r).
Proof.
  induction n as [|n IH]; intros ig last r S0; [unfold tot; cbn; split; [lia|easy]|].
  cbn [lex_loop_w]. pose proof (token_paid ig last r S0) as T.
  set (m := next_token_w LEX RENDER LOOP ig last r) in *. clearbody m. destruct m as [[[[t r']|]| |] w]; cbn [fst snd] in T.
  - destruct T as (T1 & T2 & T3 & T4 & T5). destruct (IH ig (Some t) r' (suffix_trans _ _ _ T2 S0)) as [I1 I2].
    unfold wbind, charge. cbn [fst snd].
    set (m := lex_loop_w LEX RENDER LOOP n ig (Some t) r') in *. clearbody m. set (k := length r - length r') in *.
    assert (1 <= k) as K1 by lia. assert (length r = k + length r') as LK by lia. rewrite LK. set (j := length r') in *. clearbody k j. clear LK.
    pose proof (Nat.mul_le_mono_l _ _ c (sq_split k j)) as SQ.
    destruct m as [[ts| |] v]; unfold wbind, charge, tot, free in *; cbn [fst snd] in *.
    + rewrite sums_cons. split; [lia|]. intros ts' Q HC. injection Q as <-. rewrite sums_cons.
      specialize (I2 ts eq_refl (fun x J => HC x (or_intror J))). pose proof c_large as CL.
      assert (w + plainc t <= 4 * k + c * (k * k)) as A; [|lia].
      destruct (is_plain t) eqn:P; [|destruct t; cbn [plainc]; try discriminate P; lia].
      destruct t; try discriminate P. rewrite (T4 eq_refl). cbn [plainc plain_size] in *.
      specialize (HC t (or_introl eq_refl)). unfold ac, weight in *. destruct (made_up t).
      * nia.
      * unfold rc. pose proof (tall_le t c k HC T3). lia.
    + split; [lia|easy].
    + split; [lia|easy].
  - unfold wbind, charge, tot, free; cbn [fst snd]. split; [unfold sums; cbn; lia|].
    intros ts Q _. injection Q as <-. unfold sums; cbn. lia.
  - unfold wbind, tot; cbn [fst snd]. split; [lia|easy].
  - unfold wbind, tot; cbn [fst snd]. split; [lia|easy].
Qed.
End Lex.

Lemma no_pipe_texts : texts (fun x => has_pipe x = false).
Proof.
  constructor; try reflexivity.
  - intros a s J H. apply contains_char_false. apply contains_char_false in H.
    intros G. apply H. eapply infix_In; eauto.
  - intros s _. apply sanitize_no_pipe.
Qed.
Lemma made_up_work f x : made_up x = true -> snd (wbind (lex_w f x []) (parse_w f)) <= 80.
Proof.
  intros M. apply made_up_iff in M as [-> | ->]; (destruct f as [|f]; [cbn; lia|]); vm_compute; lia.
Qed.
Lemma lex_flags f s ig ts x : lex f s ig = Ret ts -> In (Plaintext x) ts -> cc x <= cc s.
Proof.
  intros Q J. apply cc_flags; intros G.
  - pose proof (lex_ok _ _ no_gt_texts (any_templates _) f s ig ts G Q) as F. rewrite Forall_forall in F. specialize (F _ J). now inversion F as [? F0]; inversion F0.
  - pose proof (lex_ok _ _ no_pipe_texts (any_templates _) f s ig ts G Q) as F. rewrite Forall_forall in F. specialize (F _ J). now inversion F as [? F0]; inversion F0.
Qed.
Lemma fuel_work f :
  (forall x ig, tot (sums pc) (lex_w f x ig) <= 1 + length x + tall x) /\
  (forall x ig ts, fst (lex_w f x ig) = Ret ts -> snd (lex_w f x ig) + sums plainc ts <= 1 + 5 * length x + tall x) /\
  (forall ts, snd (parse_w f ts) <= 1 + length ts + sums pc ts).
Proof.
  induction f as [|f (IHL & IHM & IHP)].
  { unfold tot. cbn. repeat split; intros; try lia; discriminate. }
  assert (HT : forall x ig ts, fst (lex_w f x ig) = Ret ts -> length ts <= length x).
  { intros x ig ts Q. rewrite (proj1 (work_erase f)) in Q. eapply lex_token_count; eauto. }
  assert (HR : forall x ig, snd (wbind (lex_w f x ig) (parse_w f)) <= rc x).
  { intros x ig. unfold wbind, charge, rc. pose proof (IHL x ig) as L. specialize (HT x ig). unfold tot in L.
    destruct (fst (lex_w f x ig)) as [ts| |]; cbn [snd]; [|lia|lia]. specialize (HT ts eq_refl). pose proof (IHP ts). lia. }
  split; [|split].
  - intros x ig. pose proof (loop_paid _ _ f x (cc x) eq_refl IHL IHM HT HR (S (length x)) ig None x (suffix_refl x)) as [A _].
    cbn [lex_w]. unfold tot, charge in *. cbn [fst snd] in *. unfold tall. lia.
  - intros x ig ts Q. pose proof (loop_paid _ _ f x (cc x) eq_refl IHL IHM HT HR (S (length x)) ig None x (suffix_refl x)) as [_ A].
    assert (forall y, In (Plaintext y) ts -> cc y <= cc x) as FL.
    { intros y. rewrite (proj1 (work_erase (S f))) in Q. exact (lex_flags _ _ _ _ _ Q). }
    cbn [lex_w] in *. unfold charge in *. cbn [fst snd] in *. specialize (A ts Q FL). unfold tall. lia.
  - intros ts. cbn [parse_w]. unfold charge. cbn [snd].
    pose proof (parse_paid (fun s => wbind (lex_w f s []) (parse_w f)) (parse_w f) (fun x => HR x []) (made_up_work f) IHP ts). lia.
Qed.
Lemma render_work f s : snd (render_w f s) <= rc s.
Proof.
  destruct (fuel_work f) as (L & _ & P). specialize (L s []). unfold render_w, wbind, charge, rc, tot in *.
  pose proof (fun ts Q => lex_token_count f s [] ts (eq_trans (eq_sym (proj1 (work_erase f) s [])) Q)) as HT.
  destruct (fst (lex_w f s [])) as [ts| |]; cbn [snd]; [|lia|lia]. specialize (HT ts eq_refl). pose proof (P ts). lia.
Qed.
End Bound.

(** Quadratic, and the factor is large only for texts with a quotation mark. *)
Theorem work_bound f s :
  (N.of_nat (snd (render_w f s)) <= 2 + 2 * N.of_nat (length s)
    + ((if has_gt s then 6420 else 100) + (if has_pipe s then 4 else 0)) * (N.of_nat (length s) * N.of_nat (length s)))%N.
Proof.
  pose proof (render_work 100 (64 * 100 + 20) (le_n _) (le_n _) f s) as H. unfold rc, tall, cc in H.
  destruct (has_gt s), (has_pipe s); lia.
Qed.

(** ** A text for which it is quadratic *)
Fixpoint nest (n : nat) : str := match n with 0 => lit "a" | S n' => lit "- " ++ nest n' end.
Lemma nest_length n : length (nest n) = 2 * n + 1.
Proof. induction n as [|n IH]; [reflexivity|]. cbn [nest]. rewrite app_length, IH. cbn. lia. Qed.
Lemma nest_not_nl n : forallb not_nl (nest n) = true.
Proof. induction n as [|n IH]; [reflexivity|]. cbn [nest]. rewrite forallb_app, IH. reflexivity. Qed.
Lemma nest_item LEX LOOP RENDER m n :
  lex_loop_w LEX RENDER LOOP (S (S m)) [] None (nest (S n)) = free (Ret [UnorderedListEntry [Plaintext (c_sp :: nest n)]]).
Proof.
  change (nest (S n)) with (c_minus :: c_sp :: nest n). cbn [lex_loop_w next_token_w].
  assert (dispatch_w LEX RENDER LOOP [] None c_minus (c_minus :: c_sp :: nest n) =
    free (Ret (LOk (UnorderedListEntry [Plaintext (c_sp :: nest n)]) []))) as D.
  { change (dispatch_w LEX RENDER LOOP [] None c_minus (c_minus :: c_sp :: nest n)) with
      (lex_plus_minus_w LEX (c_minus :: c_sp :: nest n)). unfold lex_plus_minus_w, consume_while.
    set (f := fun c => ceq c c_minus || ceq c c_plus).
    change (take_while f (c_minus :: c_sp :: nest n)) with [c_minus].
    change (drop_while f (c_minus :: c_sp :: nest n)) with (c_sp :: nest n). cbn [length].
    rewrite take_while_all, drop_while_all by (cbn [forallb]; now rewrite nest_not_nl).
    change (list_paragraphs 1 []) with (Some (@nil token, @nil char)). cbn [skip_if_eq].
    unfold list_item_w. replace (substring_from (c_sp :: nest n) []) with (c_sp :: nest n)
      by (unfold substring_from; cbn [length]; rewrite Nat.sub_0_r; symmetry; apply (firstn_all (c_sp :: nest n))).
    destruct n; reflexivity. }
  rewrite D. reflexivity.
Qed.
Lemma nest_child n : trim_start_by (ceq c_sp) (c_sp :: nest n) = nest n.
Proof. destruct n; reflexivity. Qed.
Lemma bind_least {A B} (m : work A) (k : A -> work B) n : n <= snd m -> n <= snd (wbind m k).
Proof. unfold wbind, charge. destruct (fst m); cbn [snd]; lia. Qed.
Theorem work_least f s : 1 + length s <= snd (render_w (S f) s).
Proof. apply bind_least. cbn [lex_w]. unfold charge. cbn [snd]. lia. Qed.
Lemma nest_work n : forall f, n < f -> (exists h, fst (render_w f (nest n)) = Ret h) /\ snd (render_w f (nest n)) = (n + 1) * (n + 4).
Proof.
  induction n as [|n IH]; intros f L; (destruct f as [|f]; [lia|]); [split; [eexists|]; vm_compute; reflexivity|].
  specialize (IH f ltac:(lia)) as [[h IH1] IH2].
  assert (render_w (S f) (nest (S n)) =
    charge (1 + (2 * S n + 1) + 0) (parse_w (S f) [UnorderedListEntry [Plaintext (c_sp :: nest n)]])) as E.
  { unfold render_w at 1. cbn [lex_w]. rewrite nest_length. replace (S (2 * S n + 1)) with (S (S (2 * n + 2))) by lia.
    rewrite nest_item. reflexivity. }
  rewrite E. cbn [parse_w]. unfold parse_body_w. cbn [parse_loop_w body_w mapW list_child_w].
  change (starts_with [c_tab; c_tab] (c_sp :: nest n)) with false. cbv iota. rewrite nest_child.
  change (wbind (lex_w f (nest n) []) (parse_w f)) with (render_w f (nest n)).
  destruct (render_w f (nest n)) as [rr w]. cbn [fst snd] in IH1, IH2. rewrite IH1, IH2.
  unfold wbind, charge, free. cbn [fst snd length]. split; [eauto|]. lia.
Qed.
Theorem nest_flat_work n f : n < f ->
  snd (render_w f (flat_map (fun _ => lit "- ") (seq 0 n) ++ lit "a")) = (n + 1) * (n + 4).
Proof.
  replace (flat_map (fun _ => lit "- ") (seq 0 n) ++ lit "a") with (nest n); [apply nest_work|].
  generalize 0. induction n as [|n IH]; intros k; [reflexivity|]. cbn [nest seq flat_map]. rewrite <- app_assoc, <- IH. reflexivity.
Qed.
