(** * SizeFacts: how long the html can get. *)
From Coq Require Import Ascii String.
From Verif Require Import Strings StringsFacts Token Iter Lexer Parser LexerFacts LexMono
  SanitizeFacts HtmlFacts Master Markdown LinkFacts MarkdownFacts OutputFacts SizeLex.
Open Scope list_scope.

(** ** A measure of html that survives the padding of code in lists: every '<'
    counts [d] extra. *)
Definition lts (h : str) : nat := length (filter (ceq c_lt) h).
Definition mu (d : nat) (h : str) : nat := length h + d * lts h.

Lemma lts_app a b : lts (a ++ b) = lts a + lts b.
Proof. unfold lts. now rewrite filter_app, app_length. Qed.
Lemma lts_length h : lts h <= length h.
Proof. induction h as [|c h IH]; [cbn; lia|]. unfold lts in *. cbn [filter]. destruct (ceq c_lt c); cbn [length]; lia. Qed.
Lemma mu_app d a b : mu d (a ++ b) = mu d a + mu d b.
Proof. unfold mu. rewrite lts_app, app_length. lia. Qed.
Lemma mu_cons d c s : mu d (c :: s) = mu d [c] + mu d s.
Proof. change (c :: s) with ([c] ++ s). apply mu_app. Qed.
Lemma mu_nil d : mu d [] = 0.
Proof. unfold mu, lts. cbn. lia. Qed.
Lemma mu_le d h : mu d h <= (1 + d) * length h.
Proof. unfold mu. pose proof (lts_length h). nia. Qed.
Lemma mu_length d h : length h <= mu d h.
Proof. unfold mu. lia. Qed.
Lemma mu_mono d e h : d <= e -> mu d h <= mu e h.
Proof. unfold mu. nia. Qed.
Lemma mu_infix d a h : infix a h -> mu d a <= mu d h.
Proof. intros (x & y & ->). rewrite !mu_app. lia. Qed.
Lemma mu_concat d l : mu d (concat l) = sums (mu d) l.
Proof. induction l as [|x l IH]; [apply mu_nil|]. cbn [concat]. rewrite mu_app, sums_cons, IH. lia. Qed.

Lemma mu_untab d h : mu d (untab h) <= 2 * mu d h.
Proof.
  induction h as [|c h IH]; [cbn; lia|]. rewrite untab_cons, mu_app, (mu_cons d c).
  destruct (ceq c c_tab) eqn:E; [|lia]. apply ceq_eq in E as ->.
  change (mu d (lit "  ")) with (2 + d * 0). change (mu d [c_tab]) with (1 + d * 0). lia.
Qed.

Lemma mu_pad d h : mu d (pre_code_pad h) <= mu (2 + d) h.
Proof.
  unfold pre_code_pad. remember (length h) as n eqn:L. assert (LE : length h <= n) by lia. clear L.
  revert h LE. induction n as [|n IH]; intros h LE.
  { destruct h; [cbn; lia | cbn in LE; lia]. }
  destruct h as [|c h]; [cbn; lia|].
  destruct (starts_with (lit "<pre><code>") (c :: h)) eqn:S.
  - apply starts_with_iff in S as [y E]. rewrite E in *.
    change (lit "<pre><code>") with (60%N :: lit "pre><code>").
    rewrite replace_hit, !mu_app. cbn [length] in LE.
    assert (Ly : length y <= n). { rewrite app_length in LE. cbn in LE. lia. }
    specialize (IH y Ly). change (60%N :: lit "pre><code>") with (lit "<pre><code>").
    assert (mu d (lit "<pre><code>  ") = 13 + d * 2) as -> by reflexivity.
    assert (mu (2 + d) (lit "<pre><code>") = 11 + (2 + d) * 2) as -> by reflexivity. lia.
  - rewrite replace_miss by exact S. rewrite (mu_cons d), (mu_cons (2 + d)).
    specialize (IH h ltac:(cbn in LE; lia)). pose proof (mu_mono d (2 + d) [c] ltac:(lia)). lia.
Qed.

(** ** Lengths of pieces of html *)
Lemma nb_digits_succ u : Decimal.nb_digits (Decimal.Little.succ u) <= S (Decimal.nb_digits u).
Proof. induction u; cbn; lia. Qed.
Lemma nb_digits_little n u :
  Decimal.nb_digits (Nat.to_little_uint n u) <= n + Decimal.nb_digits u.
Proof.
  revert u; induction n as [|n IH]; intros u; cbn [Nat.to_little_uint]; [lia|].
  specialize (IH (Decimal.Little.succ u)). pose proof (nb_digits_succ u). lia.
Qed.
Lemma nb_digits_revapp u v :
  Decimal.nb_digits (Decimal.revapp u v) = Decimal.nb_digits u + Decimal.nb_digits v.
Proof. revert v; induction u; intros v; cbn; rewrite ?IHu; cbn; lia. Qed.
Lemma len_string_of_uint u :
  String.length (DecimalString.NilEmpty.string_of_uint u) = Decimal.nb_digits u.
Proof. induction u; cbn; auto. Qed.
Lemma len_lit s : length (lit s) = String.length s.
Proof. induction s; cbn; auto. Qed.
Lemma len_dec n : length (dec n) <= S n.
Proof.
  unfold dec. rewrite len_lit.
  assert (D : Decimal.nb_digits (Nat.to_uint n) <= S n).
  { unfold Nat.to_uint, Decimal.rev. rewrite nb_digits_revapp.
    pose proof (nb_digits_little n Decimal.zero). change (Decimal.nb_digits Decimal.zero) with 1 in *; change (Decimal.nb_digits Decimal.Nil) with 0. lia. }
  unfold DecimalString.NilZero.string_of_uint.
  destruct (Nat.to_uint n) eqn:E; [cbn; lia | | | | | | | | | |];
    rewrite <- E, len_string_of_uint in *; assumption.
Qed.

Lemma len_flat_map (f : char -> str) k s : (forall c, length (f c) <= k) -> length (flat_map f s) <= k * length s.
Proof.
  intros H. induction s as [|c s IH]; [cbn; lia|]. cbn [flat_map length]. rewrite app_length.
  specialize (H c). lia.
Qed.
Lemma len_replace_char c r s : 1 <= length r -> length (replace_char c r s) <= length r * length s.
Proof. intros H. apply len_flat_map. intros x. destruct (ceq x c); [lia | cbn; lia]. Qed.

Lemma len_encoded s : length (encoded s) <= 5 * length s.
Proof.
  apply len_flat_map. intros c. unfold pct.
  repeat match goal with |- length (if ?b then _ else _) <= _ => destruct b end; cbn; lia.
Qed.

(** The scheme of a link, printed in addition to its destination. *)
Definition slen (t : token) : nat :=
  match t with
  | Link u _ _ => match url_scheme u with Some s => length (fmt_scheme s) | None => 0 end
  | _ => 0
  end.
Lemma slen_ok t : link_ok t -> slen t <= 32.
Proof. destruct t; cbn; try lia. destruct (url_scheme l); lia. Qed.

Lemma len_fmt_url u t h :
  length (fmt_url u) <= 5 + slen (Link u t h) + 5 * length (url_content u).
Proof.
  unfold fmt_url. cbn zeta. rewrite encoded_percent. pose proof (len_encoded (url_content u)).
  cbn [slen]. destruct (url_scheme u); rewrite ?app_length; cbn [length lit]; cbn; lia.
Qed.
Lemma len_fmt_unsafe u t h :
  length (fmt_unsafe u) <= 5 + slen (Link u t h) + 5 * length (url_content u).
Proof.
  unfold fmt_unsafe. cbn zeta.
  pose proof (len_replace_char c_amp (lit "&amp;") (url_content u) ltac:(cbn; lia)) as L.
  set (amp := replace_char _ _ _) in *. clearbody amp. change (length (lit "&amp;")) with 5 in L.
  cbn [slen]. destruct (url_scheme u) as [[]|]; cbn [fmt_scheme]; rewrite ?app_length; cbn [length lit]; cbn; lia.
Qed.

Lemma split_go_size p skip acc s :
  sums (fun x : str => length x) (split_go p skip acc s) <= length acc + length s /\
  length (split_go p skip acc s) <= 1 + length s.
Proof.
  revert skip acc. induction s as [|c s IH]; intros skip acc; cbn [split_go].
  - unfold sums. cbn. rewrite rev_length. lia.
  - destruct skip as [|k].
    + destruct (starts_with p (c :: s)).
      * destruct (IH (length p - 1) []) as [A B]. rewrite sums_cons, rev_length. cbn [length] in *. lia.
      * destruct (IH 0 (c :: acc)) as [A B]. cbn [length] in *. lia.
    + destruct (IH k acc) as [A B]. cbn [length] in *. lia.
Qed.
Lemma split_size p s :
  sums (fun x : str => length x) (split p s) <= length s /\ length (split p s) <= 1 + length s.
Proof. exact (split_go_size p 0 [] s). Qed.

Lemma footnote_pieces_len n ps B : n + length ps <= B ->
  length (footnote_pieces n ps) <= (100 + B) * length ps + 16 * sums (fun x : str => length x) ps.
Proof.
  revert n. induction ps as [|x ps IH]; intros n L; cbn [footnote_pieces]; [cbn; lia|].
  rewrite sums_cons. cbn [length] in *.
  destruct (ends_with [c_rbrk] (trim_end x)).
  - rewrite app_length. specialize (IH (S n) ltac:(lia)).
    assert (LR : length (footnote_ref (trim_end_by (ceq c_rbrk) (trim_end x)) n) <= 100 + B + 16 * length x).
    { unfold footnote_ref. set (y := trim_end_by (ceq c_rbrk) (trim_end x)).
      assert (LY : length y <= length x).
      { subst y. etransitivity; [apply len_trim_end|]. apply infix_length, infix_trim_end. }
      clearbody y. pose proof (sanitize_length y). pose proof (len_dec n).
      rewrite !app_length, !len_lit. cbn [String.length]. lia. }
    lia.
  - rewrite app_length. specialize (IH n ltac:(lia)). lia.
Qed.

Lemma infix_drop_blank_tail t : infix (drop_blank_tail t) t.
Proof.
  unfold drop_blank_tail. destruct (rfind_split_at c_nl t) as [[? after]|]; [|apply infix_refl].
  destruct (forallb _ after); [apply infix_trim_end_matches | apply infix_refl].
Qed.
Lemma len_plaintext_html t : length (plaintext_html t) <= 128 * ((1 + length t) * (1 + length t)).
Proof.
  unfold plaintext_html. pose proof (infix_length _ _ (infix_drop_blank_tail t)) as L.
  set (u := drop_blank_tail t) in *. clearbody u.
  destruct (_ && _).
  - destruct (split_size [c_lbrk; c_caret] u) as [A B].
    pose proof (footnote_pieces_len 1 (split [c_lbrk; c_caret] u) (2 + length u) ltac:(lia)) as F.
    set (N := length (split [c_lbrk; c_caret] u)) in *. set (T := sums _ _) in *. clearbody N T.
    nia.
  - pose proof (sanitize_length (trim_start_by (ceq c_nl) u)).
    pose proof (len_trim_start (ceq c_nl) u). nia.
Qed.
Lemma made_up_iff t : made_up t = true -> t = lit "EOF" \/ t = nonlink.
Proof. intros E. apply orb_true_iff in E as [E|E]; apply str_eqb_eq in E; auto. Qed.
Lemma len_plaintext_weight t :
  length (plaintext_html t) <= 128 * ((1 + weight t) * (1 + weight t)).
Proof.
  unfold weight. destruct (made_up t) eqn:E; [|apply len_plaintext_html].
  apply made_up_iff in E as [->| ->]; apply Nat.leb_le; vm_compute; reflexivity.
Qed.
Lemma len_weight t : length t <= 38 * weight t.
Proof.
  unfold weight. destruct (made_up t) eqn:E; [|lia].
  apply made_up_iff in E as [->| ->]; apply Nat.leb_le; vm_compute; reflexivity.
Qed.

(** ** What a token can cost *)
Definition has_gt (s : str) : bool := contains_char c_gt s.

Section Cost.
Variable K : nat.
Hypothesis HK : 32 * 32 <= K.
(** [U g d n]: bound for a text of length [n]; [g] tells whether it has a '>'. *)
Variable U : bool -> nat -> nat -> nat.
Hypothesis U_mono : forall g g' d n m, (g = true -> g' = true) -> n <= m -> U g d n <= U g' d m.

Definition E (d : nat) : nat := K * (1 + d).
Definition flat (d : nat) (t : token) : nat := E d * ((1 + tsize t) * (1 + tsize t) * (1 + slen t)).
Definition child_cost (d : nat) (t : token) : nat :=
  match t with Plaintext x => E (2 + d) + U (has_gt x) (2 + d) (weight x) | _ => 0 end.

Fixpoint cost (d : nat) (t : token) {struct t} : nat :=
  match t with
  | Header l t lbl => E d * (1 + l + opt_len lbl) + mu d t
  | UnorderedListEntry toks => E d + sums (child_cost d) toks
  | BlockQuote l t => E d * (1 + l) + 2 * (E d + U false d (8 * length t))
  | Detail s toks => E d * (1 + length s) + E d + sums (cost d) toks
  | Table hs rows =>
      E d * (1 + sums (fun h => 1 + length (snd h)) hs)
      + sums (fun row => E d + sums (fun c => match c with (_, toks) =>
          E d + sums (flat d) toks + length toks * (E d + sums (cost d) toks) end) row) rows
  | _ => flat d t
  end.

Definition phi (d : nat) (p : pstate) : nat :=
  mu d (html p) + (1 + d) * (20 * quote_level p)
  + (1 + d) * sums (fun r => length (ref_html r)) (references p).

Lemma phi_push_mu d s p : phi d (push s p) = phi d p + mu d s.
Proof. unfold phi, push. cbn [html quote_level references]. rewrite mu_app. lia. Qed.
Lemma phi_push d s p : phi d (push s p) <= phi d p + (1 + d) * length s.
Proof. rewrite phi_push_mu. pose proof (mu_le d s). lia. Qed.
Lemma phi_par d b p : phi d (set_par b p) = phi d p. Proof. reflexivity. Qed.
Lemma phi_ol d b p : phi d (set_ol b p) = phi d p. Proof. reflexivity. Qed.
Lemma phi_ul d b p : phi d (set_ul b p) = phi d p. Proof. reflexivity. Qed.
Lemma phi_task d b p : phi d (set_task b p) = phi d p. Proof. reflexivity. Qed.
Lemma phi_code d b p : phi d (set_code b p) = phi d p. Proof. reflexivity. Qed.
Lemma len_nrep n s : length (nrep n s) = n * length s.
Proof. induction n; cbn [nrep]; [reflexivity|]. rewrite app_length, IHn. lia. Qed.
Lemma phi_unquote d p :
  phi d (set_quote 0 (push (nrep (quote_level p) (lit "</blockquote>")) p)) <= phi d p.
Proof.
  unfold phi, set_quote, push. cbn [html quote_level references]. rewrite mu_app.
  pose proof (mu_le d (nrep (quote_level p) (lit "</blockquote>"))) as L.
  rewrite len_nrep in L. change (length (lit "</blockquote>")) with 13 in L. nia.
Qed.
Lemma phi_open_par d p : phi d (open_par p) <= phi d p + (1 + d) * 3.
Proof.
  unfold open_par. destruct (in_paragraph p); [lia|].
  etransitivity; [apply phi_push|]. rewrite phi_par. change (length (lit "<p>")) with 3. lia.
Qed.

(** Add up the pieces pushed. *)
Ltac pushes :=
  repeat match goal with
  | |- context [phi ?d (set_par ?b ?p)] => rewrite (phi_par d b p)
  | |- context [phi ?d (set_ol ?b ?p)] => rewrite (phi_ol d b p)
  | |- context [phi ?d (set_ul ?b ?p)] => rewrite (phi_ul d b p)
  | |- context [phi ?d (set_task ?b ?p)] => rewrite (phi_task d b p)
  | |- context [phi ?d (set_code ?b ?p)] => rewrite (phi_code d b p)
  | |- phi ?d (open_par ?p) <= _ => eapply Nat.le_trans; [apply phi_open_par|]
  | |- phi ?d (push ?s ?p) <= _ => eapply Nat.le_trans; [apply phi_push|]
  | |- phi ?d (push ?s ?p) + _ <= _ =>
      eapply Nat.le_trans; [apply Nat.add_le_mono_r; apply phi_push|]
  | |- phi ?d (set_quote 0 (push (nrep _ _) _)) + _ <= _ =>
      eapply Nat.le_trans; [apply Nat.add_le_mono_r; apply phi_unquote|]
  end.
Ltac fixed := pushes; repeat rewrite ?app_length, ?len_lit; cbn [String.length length]; try lia.

Lemma phi_pre d t p : phi d (pre t p) <= phi d p + (1 + d) * 40.
Proof.
  assert (Z : phi d p <= phi d p + (1 + d) * 40) by lia.
  assert (Q : phi d (push (lit "<p>") (set_par true (set_quote 0
             (push (nrep (quote_level p) (lit "</blockquote>")) p)))) <= phi d p + (1 + d) * 40).
  { fixed. }
  destruct t; cbn [pre]; try assumption;
  repeat match goal with |- context [if ?b then _ else _] => destruct b end; try assumption; fixed.
  all: pushes; repeat rewrite ?app_length, ?len_lit; cbn [String.length length].
  all: try match goal with |- phi _ (open_par _) + _ <= _ =>
      eapply Nat.le_trans; [apply Nat.add_le_mono_r; apply phi_open_par|] end; fixed.
Qed.

Section Body.
Variable RENDER : str -> res str.
Variable PARSE : list token -> res str.
Hypothesis HR : forall d s h, RENDER s = Ret h -> mu d h <= E d + U (has_gt s) d (length s).
Hypothesis HM : forall d s h, made_up s = true -> RENDER s = Ret h -> mu d h <= E d.
Hypothesis HP : forall d ts h, PARSE ts = Ret h -> mu d h <= E d + sums (cost d) ts.

Lemma has_gt_infix a s : infix a s -> has_gt a = true -> has_gt s = true.
Proof. unfold has_gt. rewrite !contains_char_iff. apply infix_In. Qed.

Lemma child_size d t h : list_child RENDER t = Ret h -> mu d h <= child_cost d t.
Proof.
  destruct t; cbn [list_child child_cost];
    try (intros Q; apply Ret_inj in Q as <-; rewrite mu_nil; lia).
  set (x := if starts_with [c_tab; c_tab] t then trim_start_by (ceq c_sp) (skipn 1 t)
            else trim_start_by (ceq c_sp) t).
  assert (D : (if starts_with [c_tab; c_tab] t
      then bind (RENDER (trim_start_by (ceq c_sp) (skipn 1 t))) (fun h => Ret (pre_code_pad h))
      else bind (RENDER (trim_start_by (ceq c_sp) t)) (fun h => Ret (pre_code_pad h)))
     = bind (RENDER x) (fun h => Ret (pre_code_pad h))).
  { subst x. destruct (starts_with _ t); reflexivity. }
  rewrite D. clear D.
  destruct (RENDER x) as [g| |] eqn:R; cbn [bind]; try easy. ri.
  etransitivity; [apply mu_pad|].
  assert (IX : infix x t).
  { subst x. destruct (starts_with _ t).
    - eapply infix_trans; [apply infix_trim_start_by | apply infix_skipn].
    - apply infix_trim_start_by. }
  unfold weight. destruct (made_up t) eqn:M.
  - assert (x = t) as Ex by (apply made_up_iff in M as [->| ->]; reflexivity).
    rewrite Ex in R. pose proof (HM (2 + d) _ _ M R). lia.
  - pose proof (HR (2 + d) _ _ R).
    pose proof (U_mono (has_gt x) (has_gt t) (2 + d) (length x) (length t) (has_gt_infix _ _ IX)
      (infix_length _ _ IX)). lia.
Qed.

Lemma mapM_size {A} d (f : A -> res str) (g : A -> nat) l ys :
  (forall x y, In x l -> f x = Ret y -> mu d y <= g x) ->
  mapM f l = Ret ys -> mu d (concat ys) <= sums g l.
Proof.
  revert ys; induction l as [|x l IH]; intros ys H; cbn [mapM].
  - intros Q. apply Ret_inj in Q as <-. cbn [concat]. rewrite mu_nil. lia.
  - destruct (f x) as [y| |] eqn:F; cbn [bind]; try easy.
    destruct (mapM f l) as [zs| |]; cbn [bind]; try easy. intros Q. apply Ret_inj in Q as <-.
    cbn [concat]. rewrite mu_app, sums_cons. specialize (H x y (or_introl eq_refl) F) as H0.
    specialize (IH zs (fun a b I => H a b (or_intror I)) eq_refl). lia.
Qed.

(** [a] characters of html for [K] units of [b]. *)
Lemma afford d a b : a <= 32 * 32 * b -> (1 + d) * a <= E d * b.
Proof.
  intros H. unfold E. rewrite (Nat.mul_comm K), <- Nat.mul_assoc. apply Nat.mul_le_mono_l.
  etransitivity; [exact H|]. apply Nat.mul_le_mono_r. exact HK.
Qed.

Lemma flat_pay d t a : a <= 32 * 32 * ((1 + tsize t) * (1 + tsize t) * (1 + slen t)) ->
  (1 + d) * a <= flat d t.
Proof. apply afford. Qed.

Lemma cell_token_size d e t h : cell_token PARSE e t = Ret h ->
  mu d h <= flat d t + (E d + sums (cost d) e).
Proof.
  destruct t; cbn [cell_token];
    try (intros Q; pose proof (HP d _ _ Q); lia);
    intros Q; apply Ret_inj in Q as <-; etransitivity; try apply mu_le;
    (etransitivity; [apply flat_pay|apply Nat.le_add_r]); cbn [tsize slen];
    repeat rewrite ?app_length, ?len_lit; cbn [String.length];
    try match goal with |- context [sanitize ?t] => pose proof (sanitize_length t);
      try pose proof (len_weight t) end; nia.
Qed.

Lemma sums_add_const {A} (f : A -> nat) k l : sums (fun x => f x + k) l = sums f l + length l * k.
Proof. rewrite sums_plus, sums_const. lia. Qed.

Lemma table_size d hs rows h :
  table_html PARSE hs rows = Ret h -> mu d h + (1 + d) * 40 <= cost d (Table hs rows).
Proof.
  unfold table_html. destruct (mapM _ rows) as [rs| |] eqn:M; cbn [bind]; try easy.
  apply (mapM_size d _ (fun row => E d + sums (fun c => match c with (_, toks) =>
          E d + sums (flat d) toks + length toks * (E d + sums (cost d) toks) end) row)) in M.
  2:{ clear -HK U_mono HR HM HP. intros row h _. unfold row_html.
      destruct (mapM _ row) as [cs| |] eqn:M; cbn [bind]; try easy.
      intros Q; apply Ret_inj in Q as <-.
      apply (mapM_size d _ (fun c => match c with (_, toks) =>
          E d + sums (flat d) toks + length toks * (E d + sums (cost d) toks) end)) in M.
      2:{ clear -HK U_mono HR HM HP. intros [a toks] h _. unfold cell_html. cbn [fst snd].
          destruct (mapM _ toks) as [ps| |] eqn:M; cbn [bind]; try easy.
          intros Q; apply Ret_inj in Q as <-.
          apply (mapM_size d _ (fun t => flat d t + (E d + sums (cost d) toks))) in M.
          2:{ intros x y _. apply cell_token_size. }
          rewrite sums_add_const in M. unfold td_html. rewrite !mu_app.
          assert (F : mu d [c_nl; c_tab; c_tab] + (mu d (lit "<td style=""text-align: ")
             + (mu d (fmt_alignment a) + (mu d (lit """>")
             + mu d (lit "</td>")))) <= E d * 1).
          { repeat rewrite <- mu_app. etransitivity; [apply mu_le|]. apply afford.
            destruct a; apply Nat.leb_le; vm_compute; reflexivity. }
          lia. }
      rewrite !mu_app.
      assert (F : mu d [c_nl; c_tab] + (mu d (lit "<tr>") + (mu d [c_nl; c_tab] + mu d (lit "</tr>"))) <= E d * 1).
      { repeat rewrite <- mu_app. etransitivity; [apply mu_le|]. apply afford.
        apply Nat.leb_le; vm_compute; reflexivity. }
      lia. }
  intros Q; apply Ret_inj in Q as <-. cbn [cost].
  assert (H : mu d (flat_map th_html hs) <= E d * sums (fun h => 1 + length (snd h)) hs).
  { clear -HK U_mono HR HM HP. induction hs as [|[a t] hs IH]; [cbn [flat_map]; rewrite mu_nil; lia|].
    cbn [flat_map]. rewrite mu_app, sums_cons. cbn [snd].
    assert (mu d (th_html (a, t)) <= E d * (1 + length t)); [|lia].
    etransitivity; [apply mu_le|]. apply afford. unfold th_html. cbn [fst snd].
    pose proof (sanitize_length t). repeat rewrite ?app_length, ?len_lit.
    destruct a; cbn [fmt_alignment]; rewrite len_lit; cbn [String.length length]; lia. }
  rewrite !mu_app.
  match goal with |- ?l + _ <= _ =>
    assert (F : l + (1 + d) * 40 <= E d * 1 + mu d (flat_map th_html hs) + mu d (concat rs)) end.
  { transitivity ((1 + d) * 40 + mu d (lit "<table class=""table table-bordered"">" ++ [c_nl; c_tab] ++ lit "<thead>"
         ++ [c_nl; c_tab] ++ lit "<tr>" ++ [c_nl]
         ++ [c_tab] ++ lit "</tr>" ++ [c_nl; c_tab] ++ lit "</thead>" ++ [c_nl; c_tab]
         ++ lit "<tbody>"
         ++ [c_nl; c_tab] ++ lit "</tbody>" ++ [c_nl] ++ lit "</table>") + mu d (flat_map th_html hs) + mu d (concat rs)).
    { rewrite !mu_app. lia. }
    do 2 apply Nat.add_le_mono_r. etransitivity; [apply Nat.add_le_mono_l, mu_le|].
    rewrite <- Nat.mul_add_distr_l. apply afford. apply Nat.leb_le; vm_compute; reflexivity. }
  lia.
Qed.

Lemma len_image l t : length (image_html l t) <= 64 + length l + 8 * opt_len t.
Proof.
  unfold image_html. destruct (is_empty _); destruct t as [t|]; cbn [opt_len];
    try pose proof (sanitize_length t); repeat rewrite ?app_length, ?len_lit; cbn [String.length]; lia.
Qed.
Lemma len_link l t h :
  length (link_html l t h) <= 64 + 2 * slen (Link l t h) + 10 * length (url_content l)
    + 8 * opt_len t + 8 * opt_len h.
Proof.
  unfold link_html. pose proof (len_fmt_url l t h). pose proof (len_fmt_unsafe l t h).
  destruct t as [t|], h as [h|]; cbn [opt_len];
    try pose proof (sanitize_length t); try pose proof (sanitize_length h);
    repeat rewrite ?app_length, ?len_lit; cbn [String.length]; lia.
Qed.
Lemma len_ref a b : length (ref_html (a, b)) <= 256 + 8 * length a + 8 * length b.
Proof.
  unfold ref_html. cbn [fst snd]. pose proof (sanitize_length a). pose proof (sanitize_length b).
  repeat rewrite ?app_length, ?len_lit; cbn [String.length length]. lia.
Qed.
Lemma len_task c t : length (task_html c t) <= 256 + 8 * length t.
Proof.
  unfold task_html. pose proof (sanitize_length t).
  destruct c; repeat rewrite ?app_length, ?len_lit; cbn [String.length length]; lia.
Qed.

(** Pay for the pieces pushed and for what [pre] pushed before. *)
Lemma pay d t p p' a :
  phi d p' <= phi d p + (1 + d) * a ->
  a + 40 <= 32 * 32 * ((1 + tsize t) * (1 + tsize t) * (1 + slen t)) ->
  phi d p' + (1 + d) * 40 <= phi d p + flat d t.
Proof. intros A B. pose proof (flat_pay d t (a + 40) B). lia. Qed.

Lemma body_size d t p p' : body RENDER PARSE t p = Ret p' ->
  phi d p' + (1 + d) * 40 <= phi d p + cost d t.
Proof.
  destruct t; cbn [body cost].
  - (* Plaintext *) ri. pose proof (len_plaintext_weight t).
    apply (pay d (Plaintext t) p _ (128 * ((1 + weight t) * (1 + weight t)))).
    + destruct (is_blank t); [lia|]. pushes. nia.
    + cbn [tsize slen]. nia.
  - (* Header *) ri. rewrite phi_push_mu.
    enough (mu d (header_html level t lbl) + (1 + d) * 40 <= E d * (1 + level + opt_len lbl) + mu d t) by lia.
    pose proof (len_dec level).
    assert (X : mu d (header_html level t lbl) <=
                mu d t + (1 + d) * (2 * length (dec level) + 32 + 8 * opt_len lbl)).
    { unfold header_html. destruct lbl as [x|]; cbn [opt_len]; rewrite !mu_app.
      - pose proof (mu_le d (sanitize (replace_char c_sp (lit "-") x))).
        pose proof (sanitize_length (replace_char c_sp (lit "-") x)).
        pose proof (len_replace_char c_sp (lit "-") x ltac:(cbn; lia)) as R.
        change (length (lit "-")) with 1 in R. pose proof (mu_le d (dec level)).
        pose proof (mu_le d (lit "<h")); pose proof (mu_le d (lit " id=""")); pose proof (mu_le d (lit """>"));
        pose proof (mu_le d (lit "</h")); pose proof (mu_le d (lit ">")); pose proof (mu_le d [c_nl]).
        rewrite !len_lit in *. cbn [String.length length] in *. nia.
      - pose proof (mu_le d (dec level)).
        pose proof (mu_le d (lit "<h"));
        pose proof (mu_le d (lit "</h")); pose proof (mu_le d (lit ">")); pose proof (mu_le d [c_nl]).
        rewrite !len_lit in *. cbn [String.length length] in *. nia. }
    pose proof (afford d (2 * length (dec level) + 32 + 8 * opt_len lbl + 40) (1 + level + opt_len lbl) ltac:(lia)).
    nia.
  - (* UnorderedListEntry *)
    destruct (mapM _ toks) as [parts| |] eqn:M; cbn [bind]; try easy. ri.
    apply (mapM_size d _ (child_cost d)) in M. 2:{ intros x y _. apply child_size. }
    rewrite phi_push_mu, !mu_app.
    assert (P1 : phi d (if in_unordered_list p then p else push (lit "<ul>" ++ [c_nl]) (set_ul true p))
                 <= phi d p + (1 + d) * 5).
    { destruct (in_unordered_list p); [lia|]. fixed. }
    assert (L : mu d (if forallb is_plaintext toks then [c_nl] else []) <= (1 + d) * 1).
    { etransitivity; [apply mu_le|]. destruct (forallb _ _); cbn [length]; lia. }
    pose proof (mu_le d (lit "<li>")); pose proof (mu_le d (lit "</li>")); pose proof (mu_le d [c_nl]).
    rewrite !len_lit in *. cbn [String.length length] in *.
    pose proof (afford d 100 1 ltac:(lia)).
    match goal with |- ?a + (?b + (?c + (?e + (?f + ?g)))) + _ <= _ =>
      assert (A1 : a <= phi d p + (1 + d) * 5) by exact P1; assert (A2 : b <= (1 + d) * 4) by assumption;
      assert (A3 : c <= (1 + d) * 1) by exact L; assert (A4 : e <= sums (child_cost d) toks) by exact M;
      assert (A5 : f <= (1 + d) * 5) by assumption; assert (A6 : g <= (1 + d) * 1) by assumption;
      generalize dependent a; generalize dependent b; generalize dependent c; generalize dependent e;
      generalize dependent f; generalize dependent g
    end. intros. lia.
  - (* OrderedListEntry *) ri. pose proof (sanitize_length t).
    apply (pay d (OrderedListEntry t) p _ (30 + 8 * length t)).
    + destruct (in_ordered_list p); fixed; nia.
    + cbn [tsize slen]. nia.
  - ri. pose proof (sanitize_length t). apply (pay d (Italic t) p _ (30 + 8 * length t)).
    + fixed; nia.
    + cbn [tsize slen]. nia.
  - ri. pose proof (sanitize_length t). apply (pay d (Bold t) p _ (30 + 8 * length t)).
    + fixed; nia.
    + cbn [tsize slen]. nia.
  - ri. pose proof (sanitize_length t). apply (pay d (BoldItalic t) p _ (30 + 8 * length t)).
    + fixed; nia.
    + cbn [tsize slen]. nia.
  - ri. apply (pay d LineBreak p _ 0); [lia | cbn [tsize slen]; lia].
  - ri. apply (pay d Newline p _ 0); [lia | cbn [tsize slen]; lia].
  - ri. apply (pay d HorizontalRule p _ 10); [fixed | cbn [tsize slen]; lia].
  - ri. apply (pay d Tab p _ 10); [fixed | cbn [tsize slen]; lia].
  - ri. apply (pay d DoubleTab p _ 10); [fixed | cbn [tsize slen]; lia].
  - ri. pose proof (sanitize_length t). apply (pay d (Strikethrough t) p _ (30 + 8 * length t)).
    + fixed; nia.
    + cbn [tsize slen]. nia.
  - ri. pose proof (sanitize_length t). apply (pay d (Code t) p _ (30 + 8 * length t)).
    + fixed; nia.
    + cbn [tsize slen]. nia.
  - ri. apply (pay d (CodeBlock t lang) p _ 0); [lia | cbn [tsize slen]; lia].
  - (* BlockQuote *)
    set (p1 := if in_paragraph p then _ else p).
    assert (I1 : phi d p1 <= phi d p + (1 + d) * 4).
    { subst p1. destruct (in_paragraph p); [|lia]. fixed. }
    clearbody p1. set (p2 := set_quote _ _).
    assert (I2 : phi d p2 <= phi d p1 + (1 + d) * (40 * level)).
    { subst p2. unfold phi, set_quote, push. cbn [html quote_level references]. rewrite mu_app.
      assert (Q : length (quote_move (quote_level p1) level) + 20 * level <= 20 * quote_level p1 + 40 * level).
      { unfold quote_move. destruct (level =? quote_level p1) eqn:A; [cbn; lia|].
        destruct (level <? quote_level p1) eqn:B; rewrite len_nrep.
        - change (length (lit "</blockquote>")) with 13. lia.
        - change (length (lit "<blockquote>" ++ [c_nl])) with 13. lia. }
      pose proof (mu_le d (quote_move (quote_level p1) level)).
      set (q := length (quote_move (quote_level p1) level)) in *. clearbody q. nia. }
    clearbody p2.
    pose proof (afford d (4 + 40 * level + 40) (1 + level) ltac:(lia)) as AF.
    destruct (is_empty t). { ri. lia. }
    destruct (RENDER _) as [h| |] eqn:R; cbn [bind]; try easy. ri.
    rewrite phi_push_mu. pose proof (mu_untab d h) as MU. unfold untab in MU.
    pose proof (HR d _ _ R) as B.
    set (y := trim_start_by (ceq c_sp) t) in *.
    assert (G : has_gt (sanitize y) = false).
    { apply contains_char_false. intros I. apply sanitize_no_special in I. discriminate I. }
    rewrite G in B.
    assert (LY : length (sanitize y) <= 8 * length t).
    { pose proof (sanitize_length y). pose proof (len_trim_start (ceq c_sp) t). subst y. lia. }
    pose proof (U_mono false false d _ _ (fun x => x) LY). lia.
  - ri. pose proof (len_image l t). apply (pay d (Image l t) p _ (64 + length l + 8 * opt_len t)).
    + pushes. nia.
    + cbn [tsize slen]. nia.
  - ri. pose proof (len_link l t ht) as L.
    set (X := 64 + 2 * slen (Link l t ht) + 10 * length (url_content l)
    + 8 * opt_len t + 8 * opt_len ht) in *.
    apply (pay d (Link l t ht) p _ X).
    + pushes. clearbody X. nia.
    + subst X. cbn [tsize]. set (z := slen _). clearbody z. clear. nia.
  - (* Detail *)
    destruct (PARSE toks) as [h| |] eqn:R; cbn [bind]; try easy. ri.
    rewrite phi_push_mu. pose proof (HP d _ _ R) as B.
    assert (P1 : phi d (if in_paragraph p then set_par false (push (lit "</p>" ++ [c_nl]) p) else p)
                 <= phi d p + (1 + d) * 5).
    { destruct (in_paragraph p); [|lia]. fixed. }
    assert (X : mu d (detail_html summary h) <= mu d h + (1 + d) * (100 + 8 * length summary)).
    { unfold detail_html. rewrite !mu_app. pose proof (mu_le d (sanitize summary)).
      pose proof (sanitize_length summary).
      pose proof (mu_le d (lit "<details>")); pose proof (mu_le d (lit "<summary>"));
      pose proof (mu_le d (lit "</summary>")); pose proof (mu_le d [c_nl]);
      pose proof (mu_le d [c_bslash; c_nl]); pose proof (mu_le d (crep 7 c_tab)); pose proof (mu_le d (lit " n</details>")).
      rewrite !len_lit in *. unfold crep in *. rewrite ?repeat_length in *. cbn [String.length length] in *. nia. }
    pose proof (afford d (5 + 100 + 8 * length summary + 40) (1 + length summary) ltac:(lia)). lia.
  - (* Table *) destruct (row0_len rows); [|easy]. destruct (negb _).
    { ri. pose proof (afford d 40 1 ltac:(lia)). lia. }
    destruct (table_html _ _ _) as [h| |] eqn:T; cbn [bind]; try easy. ri.
    apply (table_size d) in T. rewrite phi_push_mu. cbn [cost] in T. lia.
  - ri. pose proof (len_task c t). apply (pay d (TaskListItem c t) p _ (300 + 8 * length t)).
    + destruct (in_task_list p); pushes; rewrite ?len_lit; cbn [String.length]; nia.
    + cbn [tsize slen]. nia.
  - ri. pose proof (len_ref ref_id text).
    apply (pay d (Footnote ref_id text) p _ (256 + 8 * length ref_id + 8 * length text)).
    + unfold phi, add_ref. cbn [html quote_level references]. rewrite sums_app.
      unfold sums at 2. cbn [map sum fold_right].
      set (w := length (ref_html (ref_id, text))) in *. clearbody w. nia.
    + cbn [tsize slen]. nia.
Qed.

Lemma parse_loop_size d ts p p' : parse_loop RENDER PARSE ts p = Ret p' ->
  phi d p' <= phi d p + sums (cost d) ts.
Proof.
  revert p; induction ts as [|t ts IH]; intros p; cbn [parse_loop].
  - ri. lia.
  - destruct (body _ _ t _) as [p1| |] eqn:B; cbn [bind]; try easy. intros Q. apply IH in Q.
    apply (body_size d) in B. pose proof (phi_pre d t p). rewrite sums_cons. lia.
Qed.

Lemma finish_size d p : mu d (finish p) <= phi d p + (1 + d) * 200.
Proof.
  unfold finish.
  set (h1 := html p ++ _).
  assert (H1 : mu d h1 <= mu d (html p) + (1 + d) * 5).
  { subst h1. rewrite mu_app. apply Nat.add_le_mono_l. etransitivity; [apply mu_le|].
    destruct (in_paragraph p); cbn [length]; [|lia]. rewrite app_length, len_lit. cbn [String.length length]. lia. }
  clearbody h1. set (h2 := h1 ++ _).
  assert (H2 : mu d h2 <= mu d h1 + (1 + d) * (20 * quote_level p)).
  { subst h2. rewrite mu_app. apply Nat.add_le_mono_l. etransitivity; [apply mu_le|].
    rewrite len_nrep, app_length, len_lit. cbn [String.length length]. nia. }
  clearbody h2. set (h3 := h2 ++ _).
  assert (H3 : mu d h3 <= mu d h2 + (1 + d) * 5).
  { subst h3. rewrite mu_app. apply Nat.add_le_mono_l. etransitivity; [apply mu_le|].
    destruct (_ || _); cbn [length]; [|lia]. rewrite len_lit. cbn [String.length]. lia. }
  clearbody h3. set (h4 := h3 ++ _).
  assert (H4 : mu d h4 <= mu d h3 + (1 + d) * 5).
  { subst h4. rewrite mu_app. apply Nat.add_le_mono_l. etransitivity; [apply mu_le|].
    destruct (in_ordered_list p); cbn [length]; [|lia]. rewrite len_lit. cbn [String.length]. lia. }
  clearbody h4. pose proof (mu_le d [c_nl]) as NL. cbn [length] in NL.
  set (h5 := if ends_nl h4 then _ else _).
  assert (H5 : mu d h5 <= mu d h4 + (1 + d) * 1).
  { subst h5. destruct (ends_nl h4); [lia|]. rewrite mu_app. lia. }
  clearbody h5. set (h6 := if in_code p then _ else _).
  assert (H6 : mu d h6 <= mu d h5 + (1 + d) * 20).
  { subst h6. destruct (in_code p); [|lia]. rewrite mu_app.
    pose proof (mu_le d (lit "</code></pre>")). rewrite len_lit in *. cbn [String.length] in *.
    destruct (ends_nl h5); [|rewrite mu_app]; lia. }
  clearbody h6. rewrite mu_app.
  assert (H7 : mu d (refs_html (references p)) <=
     (1 + d) * sums (fun r => length (ref_html r)) (references p) + (1 + d) * 100).
  { unfold refs_html. destruct (references p) as [|r rs] eqn:R; [rewrite mu_nil; lia|].
    rewrite <- R. clear.
    assert (L : length (flat_map ref_html (references p)) = sums (fun r => length (ref_html r)) (references p)).
    { induction (references p) as [|r rs IH]; [reflexivity|]. cbn [flat_map]. rewrite app_length, sums_cons, IH. reflexivity. }
    etransitivity; [apply mu_le|].
    repeat rewrite ?app_length, ?len_lit, ?L. cbn [String.length length]. lia. }
  unfold phi. lia.
Qed.

Lemma parse_body_size d ts h : parse_body RENDER PARSE ts = Ret h ->
  mu d h <= E d + sums (cost d) ts.
Proof.
  unfold parse_body. destruct (parse_loop _ _ ts pinit) as [p| |] eqn:Q; cbn [bind]; try easy.
  ri. apply (parse_loop_size d) in Q. pose proof (finish_size d p).
  assert (phi d pinit = 0) as Z. { unfold phi, pinit. cbn [html quote_level references]. rewrite mu_nil. unfold sums. cbn. lia. }
  pose proof (afford d 200 1 ltac:(lia)). lia.
Qed.
End Body.
End Cost.

(** ** The bound *)
Section Bound.
Variables K C0 C1 : nat.
Hypothesis HK : 32 * 32 <= K.
Hypothesis HC0 : 32 * 32 <= C0.
Hypothesis HC1 : 128 * 128 * C0 <= C1.

Definition cf (g : bool) : nat := if g then C1 else C0.
Definition cube (n : nat) : nat := n * n * n.
Definition U (g : bool) (d n : nat) : nat := cf g * (K * (1 + d + 2 * n)) * cube n.

Lemma cf_mono g g' : (g = true -> g' = true) -> cf g <= cf g'.
Proof. destruct g, g'; cbn; intros H; try lia. Qed.
Lemma cf_ge g : C0 <= cf g.
Proof. destruct g; cbn; lia. Qed.
Lemma cube_mono a b : a <= b -> cube a <= cube b.
Proof. intros H. unfold cube. repeat apply Nat.mul_le_mono; assumption. Qed.
Lemma cube_add a b : cube a + cube b <= cube (a + b).
Proof. unfold cube. nia. Qed.
Lemma cube_ge a : a <= cube a.
Proof. unfold cube. nia. Qed.
Lemma cube_S a : cube a + a + 1 <= cube (S a).
Proof. unfold cube. nia. Qed.

Lemma U_mono g g' d n m : (g = true -> g' = true) -> n <= m -> U g d n <= U g' d m.
Proof.
  intros G L. unfold U. apply Nat.mul_le_mono; [|now apply cube_mono].
  apply Nat.mul_le_mono; [now apply cf_mono|]. apply Nat.mul_le_mono_l. lia.
Qed.
Lemma U_le g d e n m : 1 + d + 2 * n <= 1 + e + 2 * m -> n <= m ->
  U g d n <= cf g * (K * (1 + e + 2 * m)) * cube n.
Proof. intros A B. unfold U. apply Nat.mul_le_mono_r, Nat.mul_le_mono_l, Nat.mul_le_mono_l, A. Qed.
Lemma U_add g d a b : U g d a + U g d b <= U g d (a + b).
Proof.
  etransitivity; [apply Nat.add_le_mono; apply (U_le g d d _ (a + b)); lia|].
  rewrite <- Nat.mul_add_distr_l. unfold U. apply Nat.mul_le_mono_l, cube_add.
Qed.
Lemma U_0 g d : U g d 0 = 0. Proof. unfold U, cube. lia. Qed.
Lemma U_sums {A} g d (f : A -> nat) l : sums (fun x => U g d (f x)) l <= U g d (sums f l).
Proof.
  induction l as [|x l IH]; [unfold sums; cbn; lia|]. rewrite !sums_cons.
  etransitivity; [|apply U_add]. lia.
Qed.
Lemma cube_sums {A} (f : A -> nat) l : sums (fun x => cube (f x)) l <= cube (sums f l).
Proof.
  induction l as [|x l IH]; [unfold sums; cbn; lia|]. rewrite !sums_cons.
  etransitivity; [|apply cube_add]. lia.
Qed.

(** Pay [u] units, and one text of length [b], out of [n] characters. *)
Lemma step g d e n b u :
  1 + e + 2 * b <= 1 + d + 2 * n -> e <= d + 2 * n -> b <= n -> u + C0 * cube b <= C0 * cube n ->
  E K e * u + U g e b <= U g d n.
Proof.
  intros A B L H. etransitivity; [apply Nat.add_le_mono_l, (U_le g e d b n A L)|].
  unfold E, U. pose proof (cf_ge g) as G. set (x := K * (1 + d + 2 * n)).
  assert (X : K * (1 + e) <= x) by (subst x; apply Nat.mul_le_mono_l; lia).
  pose proof (cube_mono _ _ L) as M. set (cb := cube b) in *. set (cn := cube n) in *.
  assert (Y : u + cf g * cb <= cf g * cn).
  { destruct (Nat.le_exists_sub cb cn M) as (q & Q & _). rewrite Q in *. clearbody cb cn. nia. }
  transitivity (x * u + cf g * x * cb). { apply Nat.add_le_mono_r, Nat.mul_le_mono_r, X. }
  transitivity (x * (cf g * cn)); [|lia]. transitivity (x * (u + cf g * cb)); [lia|].
  apply Nat.mul_le_mono_l, Y.
Qed.
Lemma units g d n u : u <= C0 * cube n -> E K d * u <= U g d n.
Proof.
  intros H. pose proof (step g d d n 0 u ltac:(lia) ltac:(lia) ltac:(lia)) as SS. rewrite U_0 in SS.
  unfold cube in SS at 1. lia.
Qed.

Local Notation cost := (cost K U).
Local Notation flat := (flat K).

Lemma usable_cost d t : is_usable_in_table t = true -> cost d t = flat d t.
Proof. destruct t; try discriminate; reflexivity. Qed.

Lemma square_sums l : sums (fun m => m * m) l <= sum l * sum l.
Proof. induction l as [|x l IH]; [cbn; lia|]. rewrite sums_cons. cbn [sum fold_right]. fold (sum l). nia. Qed.

Lemma flat_sums d ts e :
  Forall link_ok ts -> length ts <= e -> sums tsize ts <= e ->
  sums (flat d) ts <= E K d * (132 * (e * e)).
Proof.
  intros F L S.
  transitivity (E K d * (33 * sums (fun t => (1 + tsize t) * (1 + tsize t)) ts)).
  { rewrite <- sums_times, <- sums_times. apply sums_le. intros t I.
    rewrite Forall_forall in F. pose proof (slen_ok t (F t I)). unfold SizeFacts.flat.
    apply Nat.mul_le_mono_l. nia. }
  apply Nat.mul_le_mono_l.
  pose proof (square_sums (map (fun t => 1 + tsize t) ts)) as Q.
  unfold sums in Q at 1. rewrite map_map in Q. fold (sums (fun t => (1 + tsize t) * (1 + tsize t)) ts) in Q.
  change (sum (map (fun t => 1 + tsize t) ts)) with (sums (fun t => 1 + tsize t) ts) in Q.
  rewrite (sums_plus (fun _ => 1) tsize), sums_const in Q.
  set (q := sums _ ts) in *. set (m := sums tsize ts) in *. clearbody q m. nia.
Qed.

Lemma cells_size l : sums (fun x : str => length x) (cells l) <= length l /\ length (cells l) <= length l.
Proof.
  unfold cells. destruct (split_size [c_pipe] l) as [A _].
  set (ps := split [c_pipe] l) in *. clearbody ps. rewrite map_length.
  assert (B : sums (fun x : str => length x) (filter (fun x => negb (is_empty x)) ps) <= length l).
  { etransitivity; [apply sums_filter | exact A]. }
  clear A. split.
  - etransitivity; [|exact B]. unfold sums. rewrite map_map.
    set (f := filter _ ps). clearbody f. induction f as [|x f IH]; [cbn; lia|]. cbn [map sum fold_right].
    pose proof (len_trim x). unfold sum in *. lia.
  - etransitivity; [|exact B]. clear. induction ps as [|x ps IH]; [cbn; lia|]. cbn [filter].
    destruct x as [|c x]; cbn [is_empty negb]; [exact IH|]. rewrite sums_cons. cbn [length]. lia.
Qed.

Section Lex.
Variable LEX : str -> list char -> res (list token).
Variable RENDER : str -> list char -> res str.
Hypothesis L1 : forall d x ig ts, LEX x ig = Ret ts -> sums (cost d) ts <= U (has_gt x) d (length x).
Hypothesis L2 : forall x ig ts, LEX x ig = Ret ts -> length ts <= length x.
Hypothesis L3 : forall x ig ts, LEX x ig = Ret ts -> sums usable_size ts <= length x.
Hypothesis L4 : forall x ig ts, LEX x ig = Ret ts -> Forall link_ok ts.
Hypothesis R1 : forall d x ig h, RENDER x ig = Ret h -> mu d h <= E K d + U (has_gt x) d (length x).

Definition cell_cost (d : nat) (toks : list token) : nat :=
  E K d + sums (flat d) toks + length toks * (E K d + sums (cost d) toks).
Lemma cell_size d x ts : LEX x [] = Ret ts ->
  cell_cost d (filter is_usable_in_table ts) <= E K d * (1 + 265 * cube (length x)).
Proof.
  intros Q. pose proof (L2 _ _ _ Q) as A. pose proof (L3 _ _ _ Q) as B. pose proof (L4 _ _ _ Q) as C.
  set (us := filter is_usable_in_table ts).
  assert (A' : length us <= length x).
  { etransitivity; [|exact A]. subst us. clear. induction ts as [|t ts IH]; [cbn; lia|]. cbn [filter].
    destruct (is_usable_in_table t); cbn [length]; lia. }
  assert (B' : sums tsize us <= length x).
  { etransitivity; [|exact B]. subst us. clear. induction ts as [|t ts IH]; [cbn; lia|]. cbn [filter].
    rewrite sums_cons. unfold usable_size at 1. destruct (is_usable_in_table t); [rewrite sums_cons|]; lia. }
  assert (C' : Forall link_ok us).
  { rewrite Forall_forall in *. intros t I. apply filter_In in I as [I _]. auto. }
  assert (D : sums (cost d) us = sums (flat d) us).
  { unfold sums. f_equal. apply map_ext_in. intros t I. apply usable_cost.
    subst us. apply filter_In in I. apply I. }
  unfold cell_cost. rewrite D. pose proof (flat_sums d us _ C' A' B') as F.
  set (n := length x) in *. set (e := E K d) in *. set (f := sums (flat d) us) in *.
  clearbody n e f. set (k := length us) in *. clearbody k. clear -A' F.
  transitivity (e + e * (132 * (n * n)) + n * (e + e * (132 * (n * n)))).
  { apply Nat.add_le_mono; [lia|]. apply Nat.mul_le_mono; lia. }
  transitivity (e * (1 + 132 * (n * n) + n * (1 + 132 * (n * n)))); [lia|].
  apply Nat.mul_le_mono_l. unfold cube. destruct n as [|n]; nia.
Qed.

Lemma row_size d (al : list alignment) l cs : lex_row LEX l = Ret cs ->
  E K d + sums (fun c : alignment * list token => match c with (_, toks) => cell_cost d toks end) (combine al cs)
  <= E K d * (266 * cube (1 + length l)).
Proof.
  unfold lex_row. intros Q. destruct (cells_size l) as [A B].
  assert (SS : sums (cell_cost d) cs <= E K d * (length (cells l) + 265 * cube (sums (fun x : str => length x) (cells l)))).
  { transitivity (E K d * sums (fun x : str => 1 + 265 * cube (length x)) (cells l)).
    - rewrite <- sums_times. revert cs Q. clear -L1 L2 L3 L4 R1 HK HC0 HC1. induction (cells l) as [|x xs IH]; intros cs; cbn [mapM].
      + intros Q. apply Ret_inj in Q as <-. unfold sums. cbn. lia.
      + destruct (LEX x []) as [ts| |] eqn:X; cbn [bind]; try easy.
        destruct (mapM _ xs) as [ys| |]; cbn [bind]; try easy. intros Q. apply Ret_inj in Q as <-.
        rewrite !sums_cons. specialize (IH ys eq_refl). pose proof (cell_size d _ _ X). lia.
    - apply Nat.mul_le_mono_l. rewrite (sums_plus (fun _ => 1)), sums_const, sums_times.
      pose proof (cube_sums (fun x : str => length x) (cells l)). lia. }
  assert (T : sums (fun c : alignment * list token => match c with (_, toks) => cell_cost d toks end) (combine al cs)
              <= sums (cell_cost d) cs).
  { clear. revert cs. induction al as [|a al IH]; intros [|c cs]; cbn [combine]; rewrite ?sums_cons;
      try (unfold sums at 1; cbn; lia). specialize (IH cs). lia. }
  pose proof (cube_mono _ _ A). pose proof (cube_S (length l)). change (1 + length l) with (S (length l)).
  transitivity (E K d * (1 + length (cells l) + 265 * cube (sums (fun x : str => length x) (cells l)))); [lia|].
  apply Nat.mul_le_mono_l. lia.
Qed.

Lemma list_cost n (toks : list token) d g :
  (forall x, In (Plaintext x) toks -> has_gt x = true -> g = true) ->
  length toks <= n -> 1 <= n -> 1 + sums plain_size toks <= n ->
  E K d + sums (child_cost K U d) toks <= U g d n.
Proof.
  intros G Lk Ln LS.
  transitivity (E K (2 + d) * (1 + length toks) + U g (2 + d) (sums plain_size toks)).
  - assert (E K d <= E K (2 + d)) by (unfold E; apply Nat.mul_le_mono_l; lia).
    assert (sums (child_cost K U d) toks <= sums (fun t => E K (2 + d) + U g (2 + d) (plain_size t)) toks).
    { apply sums_le. intros t I. destruct t; cbn [child_cost plain_size]; try lia.
      pose proof (U_mono (has_gt t) g (2 + d) (weight t) (weight t) (G t I) (le_n _)). lia. }
    rewrite (sums_plus (fun _ => E K (2 + d))), sums_const in H0.
    pose proof (U_sums g (2 + d) plain_size toks). lia.
  - apply step; try lia.
    destruct n as [|n]; [lia|]. pose proof (cube_S n). pose proof (cube_mono (sums plain_size toks) n ltac:(lia)).
    clear -HC0 H H0 Lk. set (a := cube (sums _ _)) in *. set (b := cube n) in *. set (c := cube (S n)) in *.
    clearbody a b c. nia.
Qed.

Lemma read_cost R d n t :
  (has_gt R = false -> tok_ok (fun x => has_gt x = false) (fun _ => True) t) ->
  1 <= n -> read LEX RENDER R n t -> cost d t <= U (has_gt R) d n.
Proof.
  intros G N RD. revert G. destruct RD as [t0 LF LK LT | l Ll | l x ig h Ll Lx IX Rn | a b x La Fa Lx IX Lb | l t0 Lt Ll
    | s x toks Ls IX Lx | head body al rows Ls IB M]; intros G.
  - assert (cost d t0 = flat d t0) as -> by (destruct t0; try discriminate LF; reflexivity).
    apply units. pose proof (slen_ok _ LK). unfold cube.
    assert ((1 + tsize t0) * (1 + tsize t0) <= (2 * n) * (2 * n)) by (apply Nat.mul_le_mono; lia).
    transitivity ((2 * n) * (2 * n) * 33); [apply Nat.mul_le_mono; lia|].
    transitivity (32 * 32 * (n * n * n)); [nia | apply Nat.mul_le_mono_r, HC0].
  - cbn [SizeFacts.cost opt_len]. rewrite mu_nil, Nat.add_0_r, Nat.add_0_r. apply units.
    pose proof (cube_ge n). nia.
  - cbn [SizeFacts.cost opt_len].
    pose proof (R1 d _ _ _ Rn) as B.
    pose proof (U_mono (has_gt x) (has_gt R) d _ _ (has_gt_infix _ _ IX) (le_n (length x))) as B2.
    assert (B3 : mu d (heading_unwrap h) <= mu d h).
    { apply mu_infix. unfold heading_unwrap. eapply infix_trans; [apply infix_trim|].
      eapply infix_trans; [apply infix_or_empty_suffix|]. apply infix_or_empty_prefix. }
    pose proof (step (has_gt R) d d n (length x) (2 + l) ltac:(lia) ltac:(lia) ltac:(lia)) as SS.
    assert (X : 2 + l + C0 * cube (length x) <= C0 * cube n).
    { pose proof (cube_add l (length x)). pose proof (cube_mono (l + length x) n ltac:(lia)).
      pose proof (cube_ge l). set (p := cube l) in *. set (q := cube (length x)) in *.
      set (r := cube (l + length x)) in *. set (w := cube n) in *. clearbody p q r w. nia. }
    specialize (SS X). lia.
  - cbn [SizeFacts.cost]. apply list_cost; auto.
    + intros y I Y. destruct (has_gt R) eqn:HR; [reflexivity|]. specialize (G eq_refl).
      assert (F : Forall (tok_ok (fun x => has_gt x = false) (fun _ => True)) (a ++ b)).
      { inversion G as [? G1]; subst. inversion G1; subst. assumption. }
      rewrite Forall_forall in F. specialize (F _ I). inversion F as [? F1]; subst. inversion F1; subst. congruence.
    + rewrite app_length. destruct Lb as [->|Lb]; [cbn [length]; lia|]. apply L2 in Lb. lia.
    + rewrite sums_app. destruct Lb as [->|Lb]; [unfold sums at 2; cbn; lia|].
      apply L3 in Lb. pose proof (sums_le plain_size usable_size b (fun t _ => plain_usable t)). lia.
  - destruct (has_gt R) eqn:HR.
    2:{ specialize (G eq_refl). assert (F : seen (fun x => has_gt x = false) c_gt).
        { inversion G as [? G1]; subst. inversion G1; subst. assumption. }
        destruct F as (r & F & F'). apply contains_char_false in F. contradiction. }
    cbn [SizeFacts.cost]. clear -HK HC0 HC1 Lt Ll N. unfold U, cf, E. set (m := length t0) in *. clearbody m.
    assert (A : K * (1 + d + 2 * (8 * m)) * cube (8 * m) <= 128 * 32 * (K * (1 + d + 2 * n) * cube n)).
    { assert (cube (8 * m) = 512 * cube m) as -> by (unfold cube; lia).
      pose proof (cube_mono m n ltac:(lia)).
      transitivity (K * (8 * (1 + d + 2 * n)) * (512 * cube n)); [|lia].
      apply Nat.mul_le_mono; [apply Nat.mul_le_mono_l; lia | lia]. }
    assert (B : K * (1 + d) * (3 + l) <= K * (1 + d + 2 * n) * (4 * cube n)).
    { pose proof (cube_ge n). apply Nat.mul_le_mono; [apply Nat.mul_le_mono_l|]; lia. }
    set (X := K * (1 + d + 2 * n) * cube n) in *.
    assert (A' : C0 * (K * (1 + d + 2 * (8 * m))) * cube (8 * m) <= C0 * (128 * 32 * X)).
    { rewrite <- Nat.mul_assoc. apply Nat.mul_le_mono_l, A. }
    assert (Z : C1 * (K * (1 + d + 2 * n)) * cube n = C1 * X) by (subst X; lia). rewrite Z.
    assert (B' : K * (1 + d) * (3 + l) <= 4 * X) by (subst X; lia).
    clearbody X. clear Z A B.
    assert (C1 * X >= 128 * 128 * C0 * X) by (apply Nat.mul_le_mono_r, HC1).
    set (Y := C0 * X) in *. assert (X <= Y) by (subst Y; nia).
    assert (C0 * (128 * 32 * X) = 128 * 32 * Y) as Q by (subst Y; lia).
    assert (128 * 128 * C0 * X = 128 * 128 * Y) as Q2 by (subst Y; lia). rewrite Q in A'. rewrite Q2 in H.
    lia.
  - cbn [SizeFacts.cost]. pose proof (L1 d _ _ _ Lx) as B.
    pose proof (U_mono (has_gt x) (has_gt R) d _ _ (has_gt_infix _ _ IX) (le_n (length x))) as B2.
    pose proof (step (has_gt R) d d n (length x) (2 + length s) ltac:(lia) ltac:(lia) ltac:(lia)) as SS.
    assert (X : 2 + length s + C0 * cube (length x) <= C0 * cube n).
    { pose proof (cube_add (1 + length s) (length x)). pose proof (cube_mono (1 + length s + length x) n ltac:(lia)).
      pose proof (cube_ge (1 + length s)). set (p := cube (1 + length s)) in *. set (q := cube (length x)) in *.
      set (r := cube (1 + length s + length x)) in *. set (w := cube n) in *. clearbody p q r w. nia. }
    specialize (SS X). lia.
  - cbn [SizeFacts.cost].
    assert (A : sums (fun row => E K d + sums (fun c : alignment * list token => match c with (_, toks) => cell_cost d toks end) row) rows
                <= E K d * (266 * cube (sums (fun l : str => 1 + length l) body))).
    { transitivity (E K d * sums (fun l : str => 266 * cube (1 + length l)) body).
      - rewrite <- sums_times. clear G. revert rows M. clear -L1 L2 L3 L4 R1 HK HC0 HC1.
        induction body as [|l body IH]; intros rows; cbn [mapM].
        + intros Q. apply Ret_inj in Q as <-. unfold sums. cbn. lia.
        + destruct (lex_row LEX l) as [cs| |] eqn:X; cbn [bind]; try easy.
          match goal with |- context [mapM ?f body] => destruct (mapM f body) as [ys| |] end; cbn [bind]; try easy. intros Q. apply Ret_inj in Q as <-.
          rewrite !sums_cons. specialize (IH ys eq_refl). pose proof (row_size d al _ _ X). lia.
      - apply Nat.mul_le_mono_l. rewrite sums_times. apply Nat.mul_le_mono_l. apply cube_sums. }
    unfold cell_cost in A.
    assert (H : sums (fun h => 1 + length (snd h)) (combine al (cells head)) <= 2 * length head).
    { destruct (cells_size head) as [A1 A2].
      transitivity (sums (fun x : str => 1 + length x) (cells head)).
      - clear. generalize (cells head). induction al as [|a al IH]; intros [|c cs]; cbn [combine]; rewrite ?sums_cons;
          try (unfold sums at 1; cbn; lia). specialize (IH cs). cbn [snd] in *. cbv beta in *. unfold str in *. lia.
      - rewrite (sums_plus (fun _ => 1) (fun x : str => length x)), sums_const. lia. }
    set (B := sums (fun l : str => 1 + length l) body) in *.
    assert (LB : 1 + length head + B <= n) by exact Ls.
    pose proof (units (has_gt R) d n (1 + 2 * length head + 266 * cube B)) as SS.
    assert (X : 1 + 2 * length head + 266 * cube B <= C0 * cube n).
    { pose proof (cube_add (1 + length head) B). pose proof (cube_mono (1 + length head + B) n ltac:(lia)).
      pose proof (cube_ge (1 + length head)). set (p := cube (1 + length head)) in *. set (q := cube B) in *.
      set (r := cube (1 + length head + B)) in *. set (w := cube n) in *. clearbody p q r w.
      transitivity (32 * 32 * w); [lia|]. apply Nat.mul_le_mono_r, HC0. }
    specialize (SS X). etransitivity; [|exact SS].
    transitivity (E K d * (1 + 2 * length head) + E K d * (266 * cube B)); [|lia].
    apply Nat.add_le_mono; [|exact A]. apply Nat.mul_le_mono_l. lia.
Qed.
End Lex.

Lemma read_suffix LEX RENDER r R n t : infix r R -> read LEX RENDER r n t -> read LEX RENDER R n t.
Proof.
  intros IR [t0 LF LK LT | l Ll | l x ig h Ll Lx IX Rn | a b x La Fa Lx IX Lb | l t0 Lt Ll
    | s x toks Ls IX Lx | head body al rows Ls IB M].
  - now apply rd_leaf.
  - now apply rd_header0.
  - apply (rd_header _ _ _ _ l x ig h); auto. eapply infix_trans; eauto.
  - apply (rd_list _ _ _ _ a b x); auto. eapply infix_trans; eauto.
  - now apply rd_quote.
  - apply (rd_detail _ _ _ _ s x); auto. eapply infix_trans; eauto.
  - apply (rd_table _ _ _ _ head body); auto. revert IB. apply Forall_impl. intros a I. eapply infix_trans; eauto.
Qed.

Lemma lex_loop_reads LEX RENDER LOOP R n ig last r ts :
  suffix r R -> lex_loop LEX RENDER LOOP n ig last r = Ret ts ->
  exists ns, Forall2 (fun k t => 1 <= k /\ read LEX RENDER R k t) ns ts /\ sum ns <= length r.
Proof.
  revert last r ts; induction n as [|n IH]; intros last r ts S; [easy|]. cbn [lex_loop].
  destruct (next_token _ _ _ _ _ r) as [[[t r']|]| |] eqn:N; cbn [bind]; try easy.
  - pose proof (next_token_progress _ _ _ _ _ _ _ _ N) as P.
    apply next_token_size in N as [L RD].
    destruct (lex_loop _ _ _ n _ _ _) as [ts'| |] eqn:Q; cbn [bind]; try easy.
    intros Z; apply Ret_inj in Z as <-.
    apply IH in Q as (ns & F & LS). 2:{ eapply suffix_trans; [apply ssuffix_suffix; exact P | exact S]. }
    exists (length r - length r' :: ns). split.
    + constructor; [|exact F]. split; [lia|]. eapply read_suffix; [|exact RD]. now apply suffix_infix.
    + cbn [sum fold_right]. fold (sum ns). lia.
  - intros Z; apply Ret_inj in Z as <-. exists []. split; [constructor | cbn; lia].
Qed.

Lemma lex_reads f s ig ts : lex (S f) s ig = Ret ts ->
  exists ns, Forall2 (fun k t => 1 <= k /\
    read (lex f) (fun s ig => bind (lex f s ig) (parse f)) s k t) ns ts /\ sum ns <= length s.
Proof. cbn [lex]. apply lex_loop_reads, suffix_refl. Qed.

Lemma lex_usable f s ig ts : lex f s ig = Ret ts -> sums usable_size ts <= length s /\ Forall link_ok ts.
Proof.
  destruct f as [|f]; [easy|]. intros Q. apply lex_reads in Q as (ns & F & L).
  assert (sums usable_size ts <= sum ns /\ Forall link_ok ts); [|split; [lia | apply H]].
  clear L. induction F as [|k t ns ts [_ RD] F [IH1 IH2]]; [unfold sums; cbn; split; [lia | constructor]|].
  rewrite sums_cons. cbn [sum fold_right]. fold (sum ns).
  assert (usable_size t <= k /\ link_ok t) as [A B]; [|split; [lia | now constructor]].
  destruct RD; try (split; [cbn; lia | exact I]). pose proof (usable_tsize t). split; [lia | assumption].
Qed.

Lemma no_gt_texts : texts (fun x => has_gt x = false).
Proof.
  constructor; try reflexivity.
  - intros a s I H. apply contains_char_false. apply contains_char_false in H.
    intros G. apply H. eapply infix_In; eauto.
  - intros s _. apply contains_char_false. intros I. apply sanitize_no_special in I. discriminate I.
Qed.
Lemma any_templates OK : templates OK (fun _ => True).
Proof. constructor; auto. repeat constructor. Qed.

Lemma made_up_render f s h : made_up s = true -> render f s = Ret h -> length h <= 320.
Proof.
  intros M Q. apply made_up_iff in M as [->| ->].
  - assert (R : renders (lit "EOF") (lit "<p>EOF</p>" ++ [c_nl])) by (exists 5; vm_compute; reflexivity).
    rewrite (renders_unique _ _ _ (ex_intro _ f Q) R). cbn. lia.
  - assert (R : renders nonlink (lit "<p>Nonlinktokenreturnedfromlex<em>links</em></p>" ++ [c_nl]))
      by (exists 6; vm_compute; reflexivity).
    rewrite (renders_unique _ _ _ (ex_intro _ f Q) R). cbn. lia.
Qed.

Lemma forall2_cost d ns ts g (P : nat -> token -> Prop) :
  Forall2 P ns ts -> (forall k t, In t ts -> P k t -> cost d t <= U g d k) ->
  sums (cost d) ts <= U g d (sum ns).
Proof.
  intros F H. induction F as [|k t ns ts Q F IH]; [unfold sums; cbn; lia|].
  rewrite sums_cons. cbn [sum fold_right]. fold (sum ns).
  etransitivity; [|apply U_add]. apply Nat.add_le_mono.
  - apply H; [now left | exact Q].
  - apply IH. intros k' t' I. apply H. now right.
Qed.

Lemma fuel_size f :
  (forall d s ig ts, lex f s ig = Ret ts -> sums (cost d) ts <= U (has_gt s) d (length s)) /\
  (forall d ts h, parse f ts = Ret h -> mu d h <= E K d + sums (cost d) ts).
Proof.
  induction f as [|f [IHL IHP]]; [split; easy|].
  assert (IHR : forall d s ig h, bind (lex f s ig) (parse f) = Ret h ->
    mu d h <= E K d + U (has_gt s) d (length s)).
  { intros d s ig h. destruct (lex f s ig) as [ts| |] eqn:Q; cbn [bind]; try easy.
    intros Z. apply (IHP d) in Z. apply (IHL d) in Q. lia. }
  split.
  - intros d s ig ts Q.
    assert (T : has_gt s = false -> Forall (tok_ok (fun x => has_gt x = false) (fun _ => True)) ts).
    { intros G. eapply (lex_ok _ _ no_gt_texts (any_templates _)); [exact G | exact Q]. }
    apply lex_reads in Q as (ns & F & L).
    transitivity (U (has_gt s) d (sum ns)); [|apply U_mono; auto].
    eapply forall2_cost; [exact F|].
    intros k t I [K1 RD].
    eapply (read_cost (lex f) (fun s ig => bind (lex f s ig) (parse f))).
    + intros. eapply IHL; eauto.
    + intros. eapply lex_token_count; eauto.
    + intros. eapply lex_usable; eauto.
    + intros. eapply lex_usable; eauto.
    + exact IHR.
    + intros G. specialize (T G). rewrite Forall_forall in T. auto.
    + exact K1.
    + exact RD.
  - intros d ts h. cbn [parse]. apply parse_body_size; auto.
    + intros. now apply U_mono.
    + intros d0 s h0. apply IHR.
    + intros d0 s h0 M Q. change (render f s = Ret h0) in Q. apply made_up_render in Q; [|exact M].
      etransitivity; [apply mu_le|]. unfold E. rewrite Nat.mul_comm. apply Nat.mul_le_mono_r. lia.
Qed.

Lemma render_size s h : renders s h -> length h <= K + C1 * (K * (1 + 2 * length s)) * cube (length s).
Proof.
  intros [f Q]. unfold render, render_ignore in Q.
  destruct (lex f s []) as [ts| |] eqn:X; cbn [bind] in Q; try easy.
  apply (proj2 (fuel_size f) 0) in Q. apply (proj1 (fuel_size f) 0) in X.
  pose proof (mu_length 0 h). pose proof (U_mono (has_gt s) true 0 _ _ (fun _ => eq_refl) (le_n (length s))).
  unfold E in Q. unfold U in H0 at 2. cbn [cf] in H0. rewrite Nat.add_0_r in H0. lia.
Qed.
End Bound.

(** The bound with its constants. *)
Lemma renders_size s h : renders s h ->
  (N.of_nat (length h) <= 2 ^ 35 * (1 + N.of_nat (length s)) ^ 4)%N.
Proof.
  intros R.
  pose proof (render_size (N.to_nat 1024) (N.to_nat 1024) (N.to_nat (2 ^ 24)) ltac:(lia) ltac:(lia) ltac:(lia) s h R) as B.
  unfold cube in B. apply (proj1 (Nat.le_ngt _ _)) in B.
  set (n := N.of_nat (length s)) in *.
  assert (Q : (N.of_nat (length h) <= 1024 + 2 ^ 24 * (1024 * (1 + 2 * n)) * (n * n * n))%N).
  { subst n. clear R. rewrite <- (N2Nat.id 1024), <- (N2Nat.id (2 ^ 24)).
    set (k := N.to_nat 1024) in *. set (c := N.to_nat (2 ^ 24)) in *. clearbody k c. lia. }
  clearbody n. clear -Q. etransitivity; [exact Q|]. nia.
Qed.

(** The same in bytes. *)
From Verif Require Import Utf8.
Lemma encode_length s : length (encode s) <= 4 * length s.
Proof.
  induction s as [|c s IH]; [reflexivity|]. rewrite encode_cons, app_length. cbn [length].
  destruct (enc_length c) as [_ L]. change (list byte) with bytes in *. lia.
Qed.
Lemma renders_bytes s h : renders s h ->
  (N.of_nat (length (encode h)) <= 2 ^ 37 * (1 + N.of_nat (length (encode s))) ^ 4)%N.
Proof.
  intros H. apply renders_size in H.
  pose proof (encode_length h) as A. pose proof (length_encode s) as B.
  apply N.le_trans with (4 * N.of_nat (length h))%N; [lia|].
  apply N.le_trans with (4 * (2 ^ 35 * (1 + N.of_nat (length s)) ^ 4))%N; [lia|].
  apply N.le_trans with (2 ^ 37 * (1 + N.of_nat (length s)) ^ 4)%N.
  - change (2 ^ 37)%N with (4 * 2 ^ 35)%N. lia.
  - apply N.mul_le_mono_l, N.pow_le_mono_l. lia.
Qed.
