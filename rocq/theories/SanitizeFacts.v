(** * SanitizeFacts: the fourteen replacements are one simultaneous substitution. *)
From Coq Require Import Ascii String.
From Verif Require Import Strings StringsFacts Token Iter Lexer Parser.
Open Scope list_scope.

(** The escape table. *)
Definition esc (c : char) : str :=
  if ceq c c_amp then lit "&amp;" else
  if ceq c c_lt then lit "&lt;" else
  if ceq c c_gt then lit "&gt;" else
  if ceq c c_quot then lit "&quot;" else
  if ceq c c_apos then lit "&apos;" else
  if ceq c c_lbrk then lit "&lbrack;" else
  if ceq c c_rbrk then lit "&rbrack;" else
  if ceq c c_lbrace then lit "&lbrace;" else
  if ceq c c_rbrace then lit "&rbrace;" else
  if ceq c c_pipe then lit "&mid;" else
  if ceq c c_bslash then [] else
  if ceq c c_tilde then lit "&tilde;" else
  if ceq c c_rpar then lit "&#41;" else
  if ceq c c_lpar then lit "&#40;" else [c].

Lemma replace_char_app c r a b : replace_char c r (a ++ b) = replace_char c r a ++ replace_char c r b.
Proof. apply flat_map_app. Qed.
Lemma sanitize_app a b : sanitize (a ++ b) = sanitize a ++ sanitize b.
Proof. unfold sanitize. now rewrite !replace_char_app. Qed.
Lemma sanitize_one c : sanitize [c] = esc c.
Proof.
  unfold esc.
  repeat match goal with
  | |- _ = (if ceq c ?d then _ else _) =>
      let E := fresh "E" in destruct (ceq c d) eqn:E;
      [apply ceq_eq in E; subst c; reflexivity|]
  end.
  unfold sanitize, replace_char. cbn [flat_map].
  repeat match goal with
  | H : ceq c ?d = false |- _ => rewrite H; cbn [flat_map app]; clear H
  end. reflexivity.
Qed.
Lemma sanitize_cons c s : sanitize (c :: s) = esc c ++ sanitize s.
Proof. change (c :: s) with ([c] ++ s). now rewrite sanitize_app, sanitize_one. Qed.
Lemma sanitize_flat s : sanitize s = flat_map esc s.
Proof. induction s as [|c s IH]; [reflexivity|]. rewrite sanitize_cons, IH. reflexivity. Qed.

(** Case analysis on [esc]. *)
Lemma esc_cases (Q : char -> str -> Prop) :
  Q c_amp (lit "&amp;") -> Q c_lt (lit "&lt;") -> Q c_gt (lit "&gt;") -> Q c_quot (lit "&quot;") ->
  Q c_apos (lit "&apos;") -> Q c_lbrk (lit "&lbrack;") -> Q c_rbrk (lit "&rbrack;") ->
  Q c_lbrace (lit "&lbrace;") -> Q c_rbrace (lit "&rbrace;") -> Q c_pipe (lit "&mid;") ->
  Q c_bslash [] -> Q c_tilde (lit "&tilde;") -> Q c_rpar (lit "&#41;") -> Q c_lpar (lit "&#40;") ->
  (forall c, c <> c_amp -> c <> c_lt -> c <> c_gt -> c <> c_quot -> c <> c_apos -> c <> c_lbrk ->
     c <> c_rbrk -> c <> c_lbrace -> c <> c_rbrace -> c <> c_pipe -> c <> c_bslash ->
     c <> c_tilde -> c <> c_rpar -> c <> c_lpar -> Q c [c]) ->
  forall c, Q c (esc c).
Proof.
  intros. unfold esc.
  repeat match goal with
  | |- Q c (if ceq c ?d then _ else _) =>
      let E := fresh "E" in destruct (ceq c d) eqn:E;
      [apply ceq_eq in E; subst c; assumption | apply ceq_neq in E]
  end. auto.
Qed.

(** Characters that never occur in escaped text. *)
Definition special (c : char) : bool :=
  mem_char c [c_lt; c_gt; c_quot; c_apos; c_lbrk; c_rbrk; c_lbrace; c_rbrace; c_pipe;
              c_bslash; c_tilde; c_rpar; c_lpar].

Lemma esc_no_special c x : In x (esc c) -> special x = false.
Proof.
  revert c. apply (esc_cases (fun c s => In x s -> special x = false));
    try (match goal with |- In _ _ -> _ => idtac end;
         intros I; repeat (destruct I as [<-|I]; [reflexivity|]); destruct I).
  intros c. intros ? ? ? ? ? ? ? ? ? ? ? ? ? ? [<-|[]]. unfold special, mem_char.
  cbn [existsb]. apply orb_false_intro; [now apply ceq_neq|].
  repeat (apply orb_false_intro; [now apply ceq_neq|]). reflexivity.
Qed.
Lemma sanitize_no_special s x : In x (sanitize s) -> special x = false.
Proof.
  rewrite sanitize_flat, in_flat_map. intros (c & _ & I). now apply esc_no_special in I.
Qed.
Lemma sanitize_length s : length (sanitize s) <= 8 * length s.
Proof.
  rewrite sanitize_flat. induction s as [|c s IH]; [cbn; lia|].
  cbn [flat_map length]. rewrite app_length.
  assert (length (esc c) <= 8).
  { revert c. apply (esc_cases (fun c s => length s <= 8)); cbn; lia. }
  lia.
Qed.
