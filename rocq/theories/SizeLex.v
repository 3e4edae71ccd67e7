(** * SizeLex: how much text a token holds, compared with what the lexer read for it. *)
From Coq Require Import Ascii String.
From Verif Require Import Strings StringsFacts Token Iter Lexer LexerFacts.
Open Scope list_scope.

(** ** Lengths *)
Lemma len_take_drop f (s : str) : length (take_while f s) + length (drop_while f s) = length s.
Proof. rewrite <- app_length, take_drop. reflexivity. Qed.
Lemma len_substring (r r' : str) : length (substring_from r r') <= length r - length r'.
Proof. unfold substring_from. rewrite firstn_length. lia. Qed.
Lemma len_next (r : str) : length (next r) = length r - 1.
Proof. destruct r; cbn; lia. Qed.
Lemma len_skip_if_eq c (r : str) : length (skip_if_eq c r) <= length r.
Proof. apply suffix_length, skip_if_eq_suffix. Qed.
Lemma len_next_if_eq c (r r' : str) : next_if_eq c r = Some r' -> length r = S (length r').
Proof. intros E. apply next_if_eq_some in E as ->. reflexivity. Qed.
Lemma len_until tail (r a r' : str) : consume_until_tail_is tail r = (a, r') -> length r = length a + length r'.
Proof. intros E. apply consume_until_tail_app in E as ->. apply app_length. Qed.
Lemma len_split_line (r a b : str) : split_line r = (a, b) -> length r = length a + length b.
Proof. intros E. apply split_line_app in E as ->. apply app_length. Qed.
Lemma len_trim_start f (s : str) : length (trim_start_by f s) <= length s.
Proof. apply infix_length, infix_trim_start_by. Qed.
Lemma len_trim_end f (s : str) : length (trim_end_by f s) <= length s.
Proof. apply infix_length, infix_trim_end_by. Qed.
Lemma len_trim (s : str) : length (trim s) <= length s.
Proof. apply infix_length, infix_trim. Qed.

(** Puts the lengths of everything in sight into the context. *)
Ltac lens :=
  repeat match goal with
  | H : next_if_eq _ _ = Some _ |- _ => apply len_next_if_eq in H
  | H : consume_until_tail_is _ _ = (_, _) |- _ => apply len_until in H
  | H : split_line _ = (_, _) |- _ => apply len_split_line in H
  end;
  repeat match goal with
  | |- context [drop_while ?f ?s] =>
      lazymatch goal with H : length (take_while f s) + length (drop_while f s) = _ |- _ => fail
      | _ => pose proof (len_take_drop f s) end
  | |- context [take_while ?f ?s] =>
      lazymatch goal with H : length (take_while f s) + length (drop_while f s) = _ |- _ => fail
      | _ => pose proof (len_take_drop f s) end
  | H : context [drop_while ?f ?s] |- _ =>
      lazymatch goal with H' : length (take_while f s) + length (drop_while f s) = _ |- _ => fail
      | _ => pose proof (len_take_drop f s) end
  | |- context [substring_from ?a ?b] =>
      lazymatch goal with H : length (substring_from a b) <= _ |- _ => fail
      | _ => pose proof (len_substring a b) end
  | |- context [next ?r] =>
      lazymatch goal with H : length (next r) = _ |- _ => fail | _ => pose proof (len_next r) end
  | H : context [length (next ?r)] |- _ =>
      lazymatch goal with H' : length (next r) = length r - 1 |- _ => fail
      | _ => pose proof (len_next r) end
  | |- context [skip_if_eq ?c ?r] =>
      lazymatch goal with H : length (skip_if_eq c r) <= _ |- _ => fail
      | _ => pose proof (len_skip_if_eq c r) end
  | H : context [skip_if_eq ?c ?r] |- _ =>
      lazymatch goal with H' : length (skip_if_eq c r) <= length r |- _ => fail
      | _ => pose proof (len_skip_if_eq c r) end
  end.

(** ** The size of texts.  Two texts of the lexer do not come from the source;
    they stand for at least one character of it. *)
Definition nonlink : str := lit "Non link token returned from lex_links".
Definition made_up (t : str) : bool := str_eqb t (lit "EOF") || str_eqb t nonlink.
Definition weight (t : str) : nat := if made_up t then 1 else length t.

Lemma weight_length t : weight t <= length t.
Proof.
  unfold weight. destruct (made_up t) eqn:E; [|lia].
  apply orb_true_iff in E as [E|E]; apply str_eqb_eq in E as ->; cbn; lia.
Qed.
Lemma weight_eof : weight (lit "EOF") = 1. Proof. reflexivity. Qed.
Lemma weight_nonlink : weight nonlink = 1. Proof. reflexivity. Qed.

Definition opt_len (o : option str) : nat := match o with Some t => length t | None => 0 end.

Definition is_plain (t : token) : bool := match t with Plaintext _ => true | _ => false end.

(** The text in a token that is no block of its own. *)
Definition tsize (t : token) : nat :=
  match t with
  | Plaintext t => weight t
  | OrderedListEntry t | Italic t | Bold t | BoldItalic t | Strikethrough t | Code t
  | TaskListItem _ t => length t
  | Image l t => length l + opt_len t
  | Link u t h => length (url_content u) + opt_len t + opt_len h
  | Footnote a b => length a + length b
  | _ => 0
  end.
Definition leaf (t : token) : bool :=
  match t with
  | Header _ _ _ | UnorderedListEntry _ | BlockQuote _ _ | Detail _ _ | Table _ _ => false
  | _ => true
  end.

(** A link does not print more than it read, apart from its scheme. *)
Definition link_ok (t : token) : Prop :=
  match t with
  | Link u _ _ => match url_scheme u with Some s => length (fmt_scheme s) <= 32 | None => True end
  | _ => True
  end.

Definition sum (l : list nat) : nat := fold_right plus 0 l.
Definition sums {A} (f : A -> nat) (l : list A) : nat := sum (map f l).

Lemma sums_app {A} (f : A -> nat) a b : sums f (a ++ b) = sums f a + sums f b.
Proof. unfold sums. rewrite map_app. induction (map f a); cbn; [reflexivity|]. unfold sum in *. lia. Qed.
Lemma sums_cons {A} (f : A -> nat) x l : sums f (x :: l) = f x + sums f l.
Proof. reflexivity. Qed.
Lemma sums_le {A} (f g : A -> nat) l : (forall x, In x l -> f x <= g x) -> sums f l <= sums g l.
Proof.
  induction l as [|x l IH]; intros H; [unfold sums; cbn; lia|]. rewrite !sums_cons.
  pose proof (H x (or_introl eq_refl)). specialize (IH (fun y I => H y (or_intror I))). lia.
Qed.
Lemma sums_filter {A} (f : A -> nat) p l : sums f (filter p l) <= sums f l.
Proof.
  induction l as [|x l IH]; [unfold sums; cbn; lia|]. cbn [filter]. rewrite sums_cons.
  destruct (p x); [rewrite sums_cons|]; lia.
Qed.
Lemma sums_const {A} (k : nat) (l : list A) : sums (fun _ => k) l = k * length l.
Proof. induction l as [|x l IH]; [unfold sums; cbn; lia|]. rewrite sums_cons, IH. cbn [length]. lia. Qed.
Lemma sums_plus {A} (f g : A -> nat) l : sums (fun x => f x + g x) l = sums f l + sums g l.
Proof. induction l as [|x l IH]; [reflexivity|]. rewrite !sums_cons, IH. lia. Qed.
Lemma sums_times {A} (k : nat) (f : A -> nat) l : sums (fun x => k * f x) l = k * sums f l.
Proof. induction l as [|x l IH]; [unfold sums; cbn; lia|]. rewrite !sums_cons, IH. lia. Qed.

(** Text that counts towards the surrounding construct. *)
Definition plain_size (t : token) : nat := match t with Plaintext t => weight t | _ => 0 end.
Definition usable_size (t : token) : nat := if is_usable_in_table t then tsize t else 0.

Lemma plain_usable t : plain_size t <= usable_size t.
Proof. destruct t; cbn; lia. Qed.
Lemma usable_tsize t : usable_size t <= tsize t.
Proof. unfold usable_size. destruct (is_usable_in_table t); lia. Qed.

(** ** Links *)
Lemma len_split_go p skip acc s x : In x (split_go p skip acc s) -> length x <= length acc + length s.
Proof.
  revert skip acc. induction s as [|c s IH]; intros skip acc; cbn [split_go].
  - intros [<-|[]]. rewrite rev_length. cbn. lia.
  - destruct skip as [|k].
    + destruct (starts_with p (c :: s)).
      * intros [<-|I]; [rewrite rev_length; lia|]. apply IH in I. cbn in *. lia.
      * intros I. apply IH in I. cbn in *. lia.
    + intros I. apply IH in I. cbn. lia.
Qed.
Lemma len_last_part s : length (last_part s) <= length s.
Proof.
  unfold last_part. destruct (split [c_colon] s) as [|x l] eqn:E; [cbn; lia|].
  assert (I : In (last (split [c_colon] s) []) (split [c_colon] s)).
  { rewrite E. destruct (exists_last (l := x :: l) ltac:(discriminate)) as (a & b & ->).
    rewrite last_last. apply in_or_app. right. left. reflexivity. }
  rewrite E in I. rewrite <- E in I at 2. apply (len_split_go [c_colon] 0 [] s). exact I.
Qed.
Lemma len_strip_scheme a s : length (strip_scheme a s) <= length s.
Proof.
  unfold strip_scheme. etransitivity; [apply infix_length, infix_or_empty_prefix|].
  apply infix_length, infix_or_empty_prefix.
Qed.

Lemma source_scheme_len s x : source_scheme s = Some x -> length (fmt_scheme x) <= 32.
Proof.
  unfold source_scheme. destruct (_ && _ && _ && _) eqn:E; [|discriminate].
  apply andb_true_iff in E as [_ E]. apply Nat.leb_le in E.
  repeat match goal with |- context [if ?b then _ else _] => destruct b end; injection 1 as <-; exact E.
Qed.

Lemma validate_link_len s u : validate_link s = inl u ->
  length (url_content u) <= length s /\
  match url_scheme u with Some x => length (fmt_scheme x) <= 32 | None => True end.
Proof.
  unfold validate_link. destruct (split_scheme s) as [sch path].
  repeat match goal with |- (if ?b then _ else _) = _ -> _ => destruct b; try discriminate end.
  - destruct (source_scheme s) as [x|] eqn:E; injection 1 as <-; cbn.
    + split; [apply len_last_part | exact (source_scheme_len s x E)].
    + split; lia.
  - destruct (source_scheme s) as [x|] eqn:E.
    + pose proof (source_scheme_len s x E). destruct x; injection 1 as <-; cbn;
        (split; [apply len_strip_scheme | exact H]).
    + injection 1 as <-. cbn. split; [lia|exact I].
Qed.

(** ** What one call of the lexer reads *)
Section Read.
Variable LEX : str -> list char -> res (list token).
Variable RENDER : str -> list char -> res str.

(** [read r n t]: [t] was made from [n] characters of [r]. *)
Inductive read (r : str) (n : nat) : token -> Prop :=
| rd_leaf t : leaf t = true -> link_ok t -> tsize t <= n -> read r n t
| rd_header0 l : 1 <= l <= n -> read r n (Header l [] None)
| rd_header l x ig h : 1 <= l -> l + length x <= n -> infix x r -> RENDER x ig = Ret h ->
    read r n (Header l (heading_unwrap h) None)
| rd_list a b x : 1 <= length a -> Forall (fun t => is_plain t = true) a ->
    length a + sums plain_size a + length x <= n -> infix x r ->
    (b = [] \/ LEX x [] = Ret b) -> read r n (UnorderedListEntry (a ++ b))
| rd_quote l t : 1 + length t <= n -> l <= n -> read r n (BlockQuote l t)
| rd_detail s x toks : 1 + length s + length x <= n -> infix x r -> LEX x [] = Ret toks ->
    read r n (Detail s toks)
| rd_table head body al rows :
    1 + length head + sums (fun l => 1 + length l) body <= n ->
    Forall (fun l => infix l r) body ->
    mapM (fun l => bind (lex_row LEX l) (fun cs => Ret (combine al cs))) body = Ret rows ->
    read r n (Table (combine al (cells head)) rows).

Definition size_ok (r : cursor) (l : lres) : Prop :=
  match l with
  | LOk t r' => length r' <= length r /\ read r (length r - length r') t
  | LErr c r' => weight c + length r' <= length r
  end.

Ltac unf := unfold consume_while, skip_while in *.
Ltac done := cbn [length app opt_len tsize url_content fst snd] in *; lens; cbn [length] in *; lia.
Lemma size_err r c r' : length c + length r' <= length r -> size_ok r (LErr c r').
Proof. cbn. pose proof (weight_length c). lia. Qed.
Lemma size_leaf r t r' : leaf t = true -> link_ok t -> tsize t + length r' <= length r ->
  size_ok r (LOk t r').
Proof. intros. cbn. split; [lia|]. constructor; auto. lia. Qed.
Lemma size_plain r t r' : length t + length r' <= length r -> size_ok r (LOk (Plaintext t) r').
Proof. intros. apply size_leaf; try easy. cbn. pose proof (weight_length t). lia. Qed.
Ltac err := apply size_err; done.
Ltac lf := first [apply size_plain | apply size_leaf; [reflexivity | exact I |]]; done.

Lemma heading_sep_len r r' : heading_sep r = Some r' -> length r' <= length r.
Proof. intros E. apply suffix_length. exact (heading_sep_suffix r r' E). Qed.

Lemma lex_heading_size r0 l :
  lex_heading RENDER (c_hash :: r0) = Ret l -> size_ok (c_hash :: r0) l.
Proof.
  unfold lex_heading, consume_while. set (r := c_hash :: r0).
  assert (L1 : 1 <= length (take_while (ceq c_hash) r)) by (subst r; cbn; lia).
  pose proof (suffix_drop_while (ceq c_hash) r) as S1.
  pose proof (len_take_drop (ceq c_hash) r) as L2. clearbody r.
  set (h := take_while (ceq c_hash) r) in *. set (r1 := drop_while (ceq c_hash) r) in *.
  clearbody h r1.
  destruct (6 <? length h). { injection 1 as <-. err. }
  destruct (heading_sep r1) as [r2|] eqn:E. 2:{ injection 1 as <-. err. }
  pose proof (heading_sep_len _ _ E) as L3. pose proof (heading_sep_suffix _ _ E) as S2.
  destruct (heading_id (take_while not_nl r2)) as [line|] eqn:E2; [|easy].
  apply heading_id_infix in E2. pose proof (infix_length _ _ E2) as L4.
  destruct (forallb (ceq c_hash) line).
  { injection 1 as <-. cbn [size_ok]. split; [done|]. apply rd_header0. done. }
  set (x := trim_end_by is_sp_tab (heading_trailing line)).
  assert (IX : infix x line).
  { subst x. eapply infix_trans; [apply infix_trim_end_by|]. apply heading_trailing_infix. }
  pose proof (infix_length _ _ IX) as L5. clearbody x.
  destruct (RENDER _ _) as [html| |] eqn:R; cbn [bind]; try easy.
  injection 1 as <-. cbn [size_ok]. split; [done|]. eapply rd_header; [exact L1 | | | exact R].
  - done.
  - eapply infix_trans; [exact IX|]. eapply infix_trans; [exact E2|].
    eapply infix_trans; [apply infix_take_while|]. apply suffix_infix.
    eapply suffix_trans; eauto.
Qed.

Lemma lex_newlines_size r : size_ok r (lex_newlines r).
Proof. unfold lex_newlines; unf. destruct (2 <=? _); [lf | err]. Qed.

Lemma lex_tabs_spaces_go_size n last r l :
  lex_tabs_spaces_go n last r = Some l -> size_ok r l.
Proof.
  revert r l; induction n as [|n IH]; intros r l; [easy|].
  cbn [lex_tabs_spaces_go]. unfold consume_while.
  pose proof (len_take_drop is_sp_tab r) as L1.
  set (ws := take_while is_sp_tab r) in *. set (r1 := drop_while is_sp_tab r) in *.
  clearbody ws r1.
  destruct (_ && _ && _). { injection 1 as <-. err. }
  destruct (_ && _ && _). { injection 1 as <-. lf. }
  destruct (consume_until_tail_is [c_nl] r1) as [line r2] eqn:EL. apply len_until in EL.
  destruct (_ && _ && _). { injection 1 as <-. err. }
  destruct (_ || _ || _). { injection 1 as <-. lf. }
  destruct (str_eqb ws [c_tab; c_tab]) eqn:EW.
  { apply str_eqb_eq in EW as ->. injection 1 as <-. lf. }
  destruct (_ || _) eqn:PK.
  - destruct (lex_tabs_spaces_go n last r2) as [[t r3|e r3]|] eqn:R; [| |easy]; apply IH in R.
    + assert (L3 : length r3 <= length r2).
      { apply R. }
      assert (D : (exists a b, t = CodeBlock a b) \/
        match t with CodeBlock _ _ => false | _ => true end = true).
      { destruct t; eauto. }
      destruct D as [(a & b & ->)|D].
      * injection 1 as <-. lf.
      * intros Q. assert (l = LErr [] r3) as ->.
        { destruct t; try discriminate D; now injection Q as <-. }
        err.
    + injection 1 as <-. cbn [size_ok] in *. lia.
  - injection 1 as <-. err.
Qed.

Lemma lex_tabs_spaces_size last r l : lex_tabs_spaces last r = Ret l -> size_ok r l.
Proof.
  unfold lex_tabs_spaces. destruct (lex_tabs_spaces_go _ _ _) eqn:E; [|easy].
  injection 1 as <-. eapply lex_tabs_spaces_go_size, E.
Qed.

Lemma lex_numbers_size c r0 l : lex_numbers (c :: r0) = Ret l -> size_ok (c :: r0) l.
Proof.
  cbn [lex_numbers]. destruct (next_if_eq c_dot r0) as [r2|] eqn:E1.
  - destruct (next_if_eq c_sp r2) as [r3|] eqn:E2; unf; injection 1 as <-; [lf | err].
  - injection 1 as <-. err.
Qed.

Lemma lex_escaped_size c r0 : size_ok (c :: r0) (lex_escaped_character (c :: r0)).
Proof.
  unfold lex_escaped_character. cbn [next tl]. destruct r0 as [|d r2].
  - cbn [size_ok length]. rewrite weight_eof. lia.
  - destruct (ceq d c_hash); unf; lf.
Qed.

Lemma lex_strong_size n mk r r1 :
  (forall t, leaf (mk t) = true /\ link_ok (mk t) /\ tsize (mk t) = length t) ->
  length r1 <= length r -> size_ok r (lex_strong n mk r r1).
Proof.
  intros M L. unfold lex_strong; unf. destruct (_ =? n); [|err].
  destruct (M (take_while (fun c => negb (is_star_under c)) r1)) as (A & B & C).
  apply size_leaf; auto. rewrite C. done.
Qed.

Lemma lex_asterisk_size r :
  size_ok r (lex_asterisk_underscore r).
Proof.
  unfold lex_asterisk_underscore; unf.
  set (f := fun c => ceq c c_star || ceq c c_under || ceq c c_tab).
  pose proof (len_take_drop f r) as L1.
  set (a := take_while f r) in *. set (r1 := drop_while f r) in *. clearbody a r1.
  destruct (if length a =? 1 then next_if_eq c_sp r1 else None) as [r2|] eqn:E.
  - destruct (length a =? 1) eqn:EA; [|easy]. apply Nat.eqb_eq in EA. cbn [size_ok]. split; [done|].
    apply (rd_list _ _ [Plaintext (take_while not_nl r2)] [] []).
    + cbn. lia.
    + now constructor.
    + unfold sums. cbn [map sum fold_right plain_size].
      pose proof (weight_length (take_while not_nl r2)). done.
    + apply infix_nil.
    + now left.
  - destruct (_ && _); [lf|].
    destruct (length a) as [|[|[|[|k]]]] eqn:LA.
    + destruct (_ || _); [lf | err].
    + lf.
    + apply lex_strong_size; [easy | lia].
    + apply lex_strong_size; [easy | lia].
    + destruct (_ || _); [lf | err].
Qed.

Lemma lex_blockquotes_size r0 : size_ok (c_gt :: r0) (lex_blockquotes (c_gt :: r0)).
Proof.
  unfold lex_blockquotes; unf. set (r := c_gt :: r0).
  assert (L1 : 1 <= length (take_while (ceq c_gt) r)) by (subst r; cbn; lia).
  pose proof (len_take_drop (ceq c_gt) r) as L2.
  set (a := take_while (ceq c_gt) r) in *. set (r1 := drop_while (ceq c_gt) r) in *.
  clearbody a r1 r.
  destruct (_ || _); [|err]. cbn [size_ok].
  pose proof (Nat.mod_le (length a) 256 ltac:(discriminate)) as LM. split; [done|].
  apply rd_quote; done.
Qed.

Lemma list_paragraphs_size n r toks r' :
  list_paragraphs n r = Some (toks, r') ->
  Forall (fun t => is_plain t = true) toks /\
  length toks + sums plain_size toks + length r' <= length r.
Proof.
  revert r toks r'; induction n as [|n IH]; intros r toks r'; [easy|].
  cbn [list_paragraphs]. destruct (ahead_is _ r) eqn:A.
  - unf. destruct (list_paragraphs n _) as [[ts r2]|] eqn:E; [|easy].
    injection 1 as <- <-. apply IH in E as [F L]. split; [now constructor|].
    unfold ahead_is in A. apply starts_with_iff in A as [y ->].
    rewrite sums_cons. cbn [plain_size].
    pose proof (weight_length (take_while not_nl (next (next (next ([c_nl; c_nl; c_tab] ++ y)))))).
    cbn [app next tl length] in *. lens. lia.
  - injection 1 as <- <-. unfold sums. cbn. split; [constructor | lia].
Qed.

Lemma ret_inj {A} (a b : A) : Ret a = Ret b -> a = b.
Proof. congruence. Qed.
Lemma list_item_size line toks r4 r l :
  1 <= length toks -> Forall (fun t => is_plain t = true) toks ->
  length line + length r4 <= length r -> suffix r4 r ->
  length toks + sums plain_size toks + length r4 <= length r ->
  list_item_token LEX line toks r4 = Ret l -> size_ok r l.
Proof.
  intros L1 F LL S LT. unfold list_item_token.
  assert (L5 : length (skipn 5 line) <= length line) by (rewrite skipn_length; lia).
  assert (Z : size_ok r (LOk (UnorderedListEntry toks) r4)).
  { cbn [size_ok]. split; [lia|]. rewrite <- (app_nil_r toks).
    apply (rd_list _ _ toks [] []); auto; [cbn; lia | apply infix_nil]. }
  destruct (starts_with _ line). { intros E; apply ret_inj in E as <-. lf. }
  destruct (_ || _). { intros E; apply ret_inj in E as <-. lf. }
  destruct (peek_line_ahead r4) as [pl|]. 2:{ injection 1 as <-. auto. }
  unfold consume_line_ahead.
  destruct (split_line r4) as [sub r5] eqn:E. pose proof (len_split_line _ _ _ E) as LS.
  apply split_line_app in E.
  assert (IS : infix sub r).
  { eapply infix_trans; [|apply suffix_infix; exact S]. rewrite E. now exists [], r5. }
  destruct (starts_with _ pl).
  { destruct (LEX sub []) as [st| |] eqn:L; cbn [bind]; try easy.
    injection 1 as <-. cbn [size_ok]. split; [lia|].
    apply (rd_list _ _ toks st sub); auto. lia. }
  destruct (starts_with _ pl).
  { destruct (LEX (skipn 1 sub) []) as [st| |] eqn:L; cbn [bind]; try easy.
    injection 1 as <-. cbn [size_ok]. split; [lia|].
    apply (rd_list _ _ toks st (skipn 1 sub)); auto.
    - rewrite skipn_length. lia.
    - eapply infix_trans; [apply infix_skipn | exact IS]. }
  injection 1 as <-. auto.
Qed.

Lemma lex_plus_minus_size c r0 l :
  ceq c c_minus || ceq c c_plus = true ->
  lex_plus_minus LEX (c :: r0) = Ret l -> size_ok (c :: r0) l.
Proof.
  intros Hc. unfold lex_plus_minus; unf.
  set (f := fun c => ceq c c_minus || ceq c c_plus). set (r := c :: r0).
  assert (L1 : 1 <= length (take_while f r)).
  { subst r. cbn [take_while]. unfold f at 1. rewrite Hc. cbn. lia. }
  pose proof (len_take_drop f r) as L2. pose proof (suffix_drop_while f r) as S1.
  set (s := take_while f r) in *. set (r1 := drop_while f r) in *. clearbody s r1 r.
  destruct (length s) as [|[|[|k]]] eqn:LS; [lia | | |].
  - pose proof (len_take_drop not_nl r1) as L3. pose proof (suffix_drop_while not_nl r1) as S2.
    set (first := take_while not_nl r1) in *. set (r2 := drop_while not_nl r1) in *.
    clearbody first r2.
    destruct (list_paragraphs _ r2) as [[more r3]|] eqn:E; [|easy].
    pose proof (list_paragraphs_suffix _ _ _ _ E) as S3.
    apply list_paragraphs_size in E as [F L4]. pose proof (suffix_length _ _ S3).
    pose proof (len_skip_if_eq c_nl r3). pose proof (weight_length first).
    apply list_item_size.
    + cbn. lia.
    + now constructor.
    + done.
    + eapply suffix_trans; [apply skip_if_eq_suffix|]. eapply suffix_trans; [exact S3|].
      eapply suffix_trans; eauto.
    + rewrite sums_cons. cbn [length plain_size]. lia.
  - injection 1 as <-. err.
  - injection 1 as <-. lf.
Qed.

Lemma lex_tilde_size r : size_ok r (lex_tilde r).
Proof.
  unfold lex_tilde; unf. destruct (length _) as [|[|[|k]]]; try err.
  destruct (2 =? _); [lf | err].
Qed.

Lemma lex_backticks_size r : size_ok r (lex_backticks r).
Proof.
  unfold lex_backticks; unf. destruct (_ =? 3).
  - destruct (next_if_eq c_nl _) as [r2|] eqn:E.
    + destruct (_ =? _); [lf | err].
    + destruct (_ =? _); [lf | err].
  - destruct (consume_until_tail_is _ _) as [s r2] eqn:E. apply len_until in E.
    destruct (negb _); [err|].
    pose proof (infix_length _ _ (infix_trim_end_matches
      (crep (length (take_while (ceq c_tick) r)) c_tick) s)) as L.
    set (s1 := trim_end_matches _ s) in *. clearbody s1.
    pose proof (len_trim_end (ceq c_sp) (trim_start_by (ceq c_sp) s1)).
    pose proof (len_trim_start (ceq c_sp) s1).
    destruct (_ && _); lf.
Qed.

Lemma lex_link_dest_size title r r0 :
  length title + length r0 <= length r -> size_ok r (lex_link_dest title r r0).
Proof.
  intros L. unfold lex_link_dest; unf.
  set (f := fun c => _). pose proof (len_take_drop f r0) as L1.
  set (link := take_while f r0) in *. set (r1 := drop_while f r0) in *. clearbody link r1.
  destruct r1 as [|c r1'] eqn:R1; [err|]. rewrite <- R1 in *.
  destruct (next_if_eq c_rpar r1) as [r2|] eqn:E.
  - apply len_next_if_eq in E. destruct (validate_link link) as [vl|e] eqn:V.
    + apply validate_link_len in V as [V1 V2]. apply size_leaf; [reflexivity | exact V2|]. done.
    + apply validate_link_err in V as ->. err.
  - destruct (validate_link link) as [vl|e] eqn:V.
    + apply validate_link_len in V as [V1 V2]. apply size_leaf; [reflexivity | exact V2|]. done.
    + apply validate_link_err in V as ->. err.
Qed.

Lemma lex_footnote_size title r r0 l :
  length title + length r0 <= length r -> lex_footnote title r r0 = Ret l -> size_ok r l.
Proof.
  intros L. unfold lex_footnote.
  pose proof (infix_length _ _ (infix_or_empty_prefix [c_caret] title)) as LI.
  destruct (footnote_lines _ r0) as [[r1|r1]|] eqn:E; [| |easy];
    apply footnote_lines_suffix in E; apply suffix_length in E.
  - destruct (existsb _ _); intros Q; apply ret_inj in Q as <-; [err|].
    pose proof (len_trim (substring_from r0 r1)). lf.
  - injection 1 as <-. err.
Qed.

Lemma lex_links_size r l : lex_links r = Ret l -> size_ok r l.
Proof.
  unfold lex_links; unf. destruct (next_if_eq c_lbrk r) as [r1|] eqn:E1.
  2:{ injection 1 as <-. err. }
  apply len_next_if_eq in E1.
  set (f := fun c => _). pose proof (len_take_drop f r1) as L1.
  set (title := take_while f r1) in *. set (r2 := drop_while f r1) in *. clearbody title r2.
  destruct (next_if_eq c_rbrk r2) as [r3|] eqn:E3.
  2:{ injection 1 as <-. err. }
  apply len_next_if_eq in E3.
  destruct (if starts_with [c_caret] title then next_if_eq c_colon r3 else None) as [r4|] eqn:E4.
  - destruct (starts_with _ title); [|easy]. apply len_next_if_eq in E4.
    apply lex_footnote_size. lia.
  - destruct (next_if_eq c_lpar r3) as [r4|] eqn:E5.
    + apply len_next_if_eq in E5. injection 1 as <-. apply lex_link_dest_size. lia.
    + injection 1 as <-. err.
Qed.

Lemma lex_images_size r l : lex_images r = Ret l -> size_ok r l.
Proof.
  unfold lex_images. destruct (next_if_eq c_bang r) as [r1|] eqn:E1.
  2:{ injection 1 as <-. err. }
  apply len_next_if_eq in E1.
  destruct (lex_links r1) as [lk| |] eqn:L; cbn [bind]; try easy.
  apply lex_links_size in L. destruct lk as [t r2|e r2].
  - destruct L as [L R].
    assert (D : (exists u a b, t = Link u a b) \/ match t with Link _ _ _ => false | _ => true end = true).
    { destruct t; eauto. }
    destruct D as [(u & a & b & ->)|D].
    + injection 1 as <-. inversion R as [t0 _ _ Z | | | | | |]; subst. cbn [tsize] in Z. lf.
    + intros Q. assert (l = LErr nonlink r2) as ->.
      { destruct t; try discriminate D; now injection Q as <-. }
      cbn [size_ok]. rewrite weight_nonlink. lia.
  - cbn [size_ok] in L. injection 1 as <-. err.
Qed.

Lemma details_loop_len n start r text x r' :
  details_loop n start r text = Some (x, r') -> length r <= length start ->
  length text + length r <= length start -> length x + length r' <= length start.
Proof.
  revert r text; induction n as [|n IH]; intros r text; cbn [details_loop].
  - destruct (_ =? _); [easy|]. injection 1 as <- <-. lia.
  - destruct (_ =? _).
    2:{ injection 1 as <- <-. lia. }
    destruct (consume_until_tail_is _ r) as [y r1] eqn:E. apply len_until in E.
    intros Q L1 L2. eapply IH; [exact Q | lia |]. pose proof (len_substring start r1). lia.
Qed.

Variable LOOP : nat.

Lemma parse_details_size r r0 l :
  length r < length r0 -> suffix r r0 -> parse_details LEX LOOP r = Ret l -> size_ok r0 l.
Proof.
  intros LR S. unfold parse_details; unf. set (f := fun c => _).
  pose proof (len_take_drop f r) as L1. pose proof (suffix_drop_while f r) as S1.
  pose proof (len_skip_if_eq c_cr (drop_while f r)) as L2.
  pose proof (skip_if_eq_suffix c_cr (drop_while f r)) as S2.
  set (sm := take_while f r) in *. set (r2 := skip_if_eq c_cr (drop_while f r)) in *.
  set (r1 := drop_while f r) in *. clearbody sm r2 r1.
  destruct (_ || _). { injection 1 as <-. err. }
  destruct (strip_prefix _ sm) as [s1|] eqn:E; [|easy].
  apply infix_strip_prefix, infix_length in E.
  pose proof (infix_length _ _ (infix_or_empty_suffix (lit "</summary>") s1)) as L3.
  destruct (consume_until_tail_is _ r2) as [t0 r3] eqn:ET.
  pose proof (len_until _ _ _ _ ET) as L4. apply consume_until_tail_app in ET.
  destruct (if contains _ t0 then _ else _) as [[text r4]|] eqn:EL; [|easy].
  assert (infix text r2 /\ length text + length r4 <= length r2) as [OX L5].
  { assert (infix t0 r2) as I0 by (rewrite ET; now exists [], r3).
    destruct (contains _ t0).
    - pose proof (details_loop_len _ _ _ _ _ _ EL ltac:(lia) ltac:(lia)).
      apply details_loop_suffix in EL as [_ [->|X]]; auto.
    - injection EL as <- <-. split; [auto | lia]. }
  pose proof (infix_length _ _ (infix_or_empty_suffix (lit "</details>") text)) as L6.
  destruct (LEX _ _) as [toks| |] eqn:L; cbn [bind]; try easy.
  intros Q; apply ret_inj in Q as <-. cbn [size_ok]. split; [lia|]. eapply rd_detail; [| |exact L].
  - lia.
  - eapply infix_trans; [apply infix_or_empty_suffix|]. eapply infix_trans; [exact OX|].
    apply suffix_infix. eapply suffix_trans; [exact S2|]. eapply suffix_trans; eauto.
Qed.

Lemma lex_side_carrot_size r l : lex_side_carrot LEX LOOP r = Ret l -> size_ok r l.
Proof.
  unfold lex_side_carrot; unf. destruct (next_if_eq c_lt r) as [r1|] eqn:E1.
  2:{ injection 1 as <-. err. }
  pose proof (len_next_if_eq _ _ _ E1) as L0. apply next_if_eq_some in E1.
  set (f := fun c => _). pose proof (len_take_drop f r1) as L1.
  pose proof (suffix_drop_while f r1) as S1.
  set (s := take_while f r1) in *. set (r2 := drop_while f r1) in *. clearbody s r2.
  destruct (next_if_eq c_gt r2) as [r3|] eqn:E3.
  2:{ injection 1 as <-. err. }
  pose proof (len_next_if_eq _ _ _ E3) as L3. apply next_if_eq_some in E3.
  destruct (str_eqb s _).
  { destruct (next_if_eq c_nl (skip_if_eq c_cr r3)) as [r5|] eqn:E5.
    - pose proof (len_next_if_eq _ _ _ E5) as L5. pose proof (len_skip_if_eq c_cr r3).
      apply next_if_eq_some in E5.
      apply parse_details_size; [lia|].
      apply suffix_trans with (skip_if_eq c_cr r3); [rewrite E5; apply suffix_cons|].
      eapply suffix_trans; [apply skip_if_eq_suffix|].
      apply suffix_trans with r2; [rewrite E3; apply suffix_cons|].
      eapply suffix_trans; [exact S1|]. rewrite E1. apply suffix_cons.
    - injection 1 as <-. pose proof (len_skip_if_eq c_cr r3). err. }
  destruct s as [|c s'] eqn:ES. { injection 1 as <-. err. }
  destruct (existsb _ _). { injection 1 as <-. err. }
  destruct (validate_link (c :: s')) as [[u [sch|]]|e] eqn:V; injection 1 as <-; [|err|err].
  apply validate_link_len in V as [V1 V2]. cbn [url_content url_scheme] in *.
  apply size_leaf; [reflexivity | exact V2 |]. done.
Qed.

Lemma table_lines_size n r ls r' :
  table_lines n r = Some (ls, r') ->
  sums (fun l => 1 + length l) ls + length r' <= length r.
Proof.
  revert r ls r'; induction n as [|n IH]; intros r ls r'; [easy|].
  cbn [table_lines]. destruct (next_if_eq c_pipe r) as [r1|] eqn:E.
  2:{ injection 1 as <- <-. unfold sums. cbn. lia. }
  unf. destruct (table_lines n _) as [[ls2 r3]|] eqn:E2; [|easy].
  injection 1 as <- <-. apply IH in E2. rewrite sums_cons. cbv beta. done.
Qed.

Lemma lex_pipes_size r l : lex_pipes LEX r = Ret l -> size_ok r l.
Proof.
  unfold lex_pipes.
  destruct (table_lines (S (length r)) r) as [[lines r1]|] eqn:E; [|easy].
  pose proof (table_lines_size _ _ _ _ E) as L. apply table_lines_ok in E as (_ & F).
  destruct lines as [|hd [|al bd]]; try (injection 1 as <-; err).
  destruct (_ <? 3) eqn:L3. { injection 1 as <-. err. }
  destruct (negb _). { injection 1 as <-. err. }
  destruct (mapM _ bd) as [rows| |] eqn:M; cbn [bind]; try easy.
  injection 1 as <-. cbn [size_ok]. rewrite !sums_cons in L. split; [lia|].
  eapply rd_table; [| |exact M].
  - lia.
  - inversion F as [|? ? _ F1]; subst. inversion F1 as [|? ? _ F2]; subst.
    revert F2. apply Forall_impl. intros a (q & S & I).
    eapply infix_trans; [exact I|]. now apply suffix_infix, ssuffix_suffix.
Qed.

Lemma dispatch_size ignore last c r0 l :
  dispatch LEX RENDER LOOP ignore last c (c :: r0) = Ret l -> size_ok (c :: r0) l.
Proof.
  unfold dispatch.
  destruct (ceq c c_hash && _) eqn:E1.
  { apply andb_true_iff in E1 as [E1 _]. apply ceq_eq in E1 as ->. apply lex_heading_size. }
  destruct (ceq c c_nl). { injection 1 as <-. apply lex_newlines_size. }
  destruct (ceq c c_sp || ceq c c_tab). { apply lex_tabs_spaces_size. }
  destruct (is_digit c). { apply lex_numbers_size. }
  destruct (ceq c c_star || _). { injection 1 as <-. apply lex_asterisk_size. }
  destruct (ceq c c_minus || _) eqn:E6. { now apply lex_plus_minus_size. }
  destruct (ceq c c_gt) eqn:E7.
  { apply ceq_eq in E7 as ->. injection 1 as <-. apply lex_blockquotes_size. }
  destruct (ceq c c_tilde). { injection 1 as <-. apply lex_tilde_size. }
  destruct (ceq c c_tick). { injection 1 as <-. apply lex_backticks_size. }
  destruct (ceq c c_lbrk). { apply lex_links_size. }
  destruct (ceq c c_bang). { apply lex_images_size. }
  destruct (ceq c c_lt). { apply lex_side_carrot_size. }
  destruct (ceq c c_pipe). { apply lex_pipes_size. }
  destruct (ceq c c_bslash). { injection 1 as <-. apply lex_escaped_size. }
  injection 1 as <-. lf.
Qed.

Lemma next_token_size ignore last r t r' :
  next_token LEX RENDER LOOP ignore last r = Ret (Some (t, r')) ->
  length r' < length r /\ read r (length r - length r') t.
Proof.
  intros H. pose proof (next_token_progress _ _ _ _ _ _ _ _ H) as P. apply ssuffix_length in P.
  split; [exact P|]. revert H.
  destruct r as [|c r0]; [easy|]. cbn [next_token].
  destruct (dispatch _ _ _ _ _ c _) as [l| |] eqn:D; cbn [bind]; try easy.
  apply dispatch_size in D. destruct l as [t0 r1|e r1]; injection 1 as <- <-; cbn [size_ok] in D.
  - apply D.
  - apply rd_leaf; [reflexivity | exact I |]. cbn [tsize]. lia.
Qed.
End Read.
