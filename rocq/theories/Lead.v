(** * Lead: empty lines in front of a document. *)
From Coq Require Import Ascii String.
From Verif Require Import Strings StringsFacts Token Iter Lexer Parser LexerFacts.
Open Scope list_scope.

(** The first line starts with white space up to the fifth column: four blanks, or up to three
    blanks and a tab. *)
Definition indented (s : str) : Prop :=
  (exists r, s = lit "    " ++ r) \/ exists k r, k <= 3 /\ s = crep k c_sp ++ c_tab :: r.

Lemma shallow s : ~ indented s ->
  length (take_while is_sp_tab s) <= 3 /\ contains_char c_tab (take_while is_sp_tab s) = false.
Proof.
  intros H. unfold indented in H.
  assert (forall k r, k <= 3 -> s = crep k c_sp ++ r ->
    length (take_while is_sp_tab r) <= 3 - k /\ contains_char c_tab (take_while is_sp_tab r) = false) as G.
  { intros k. remember (3 - k) as d. revert k Heqd. induction d as [|d IH]; intros k D r K E.
    - assert (k = 3) by lia. subst k. destruct r as [|c r]; [cbn; auto|]. cbn [take_while].
      unfold is_sp_tab at 1 3. destruct (ceq c c_tab) eqn:T.
      { apply N.eqb_eq in T. subst c. exfalso. apply H. right. exists 3, r. auto. }
      destruct (ceq c c_sp) eqn:P; cbn [orb]; [|cbn; auto].
      apply N.eqb_eq in P. subst c. exfalso. apply H. left. exists r. exact E.
    - destruct r as [|c r]; [cbn; split; [lia|auto]|]. cbn [take_while].
      unfold is_sp_tab at 1 3. destruct (ceq c c_tab) eqn:T.
      { apply N.eqb_eq in T. subst c. exfalso. apply H. right. exists k, r. auto. }
      destruct (ceq c c_sp) eqn:P; cbn [orb]; [|cbn; split; [lia|auto]].
      apply N.eqb_eq in P. subst c.
      destruct (IH (S k) ltac:(lia) r ltac:(lia)) as [A B].
      { rewrite E. unfold crep. change (c_sp :: r) with ([c_sp] ++ r).
        rewrite app_assoc. f_equal. now rewrite <- repeat_cons. }
      cbn [length]. split; [lia|]. unfold contains_char in *. cbn [existsb]. rewrite B. reflexivity. }
  destruct (G 0 s) as [A B]; [lia|reflexivity|]. split; [lia|exact B].
Qed.

Section Lead.
Variable LEX : str -> list char -> res (list token).
Variable REN : str -> list char -> res str.
Variable LOOP : nat.

Lemma next_token_last ig l1 l2 r : ~ indented r ->
  next_token LEX REN LOOP ig l1 r = next_token LEX REN LOOP ig l2 r.
Proof.
  intros H. destruct r as [|c r]; [reflexivity|]. cbn [next_token]. f_equal. unfold dispatch.
  destruct (_ && _); [reflexivity|]. destruct (ceq c c_nl); [reflexivity|].
  destruct (ceq c c_sp || ceq c c_tab) eqn:B; [|reflexivity].
  unfold lex_tabs_spaces. cbn [length lex_tabs_spaces_go]. unfold consume_while. cbv beta iota.
  destruct (shallow _ H) as [A C]. rewrite C.
  assert (1 <= length (take_while is_sp_tab (c :: r))) as P.
  { cbn [take_while]. replace (is_sp_tab c) with true; [cbn; lia|]. unfold is_sp_tab. now rewrite orb_comm. }
  apply Nat.leb_le in A, P. now rewrite A, P.
Qed.
Lemma lex_loop_last n ig l1 l2 r : ~ indented r ->
  lex_loop LEX REN LOOP n ig l1 r = lex_loop LEX REN LOOP n ig l2 r.
Proof. intros H. destruct n; [reflexivity|]. cbn [lex_loop]. now rewrite (next_token_last ig l1 l2 r H). Qed.

(** The rounds that are not needed make no difference. *)
Lemma lex_loop_enough n n' ig last r : length r < n -> length r < n' ->
  lex_loop LEX REN LOOP n ig last r = lex_loop LEX REN LOOP n' ig last r.
Proof.
  revert n' last r; induction n as [|n IH]; intros [|n'] last r H H'; try lia.
  cbn [lex_loop]. destruct (next_token LEX REN LOOP ig last r) as [[[t r']|]| |] eqn:E; cbn [bind]; try reflexivity.
  apply next_token_progress, ssuffix_length in E. rewrite (IH n'); [reflexivity|lia|lia].
Qed.
End Lead.

Lemma take_nls k s : ~ (exists r, s = c_nl :: r) -> take_while (ceq c_nl) (crep k c_nl ++ s) = crep k c_nl
  /\ drop_while (ceq c_nl) (crep k c_nl ++ s) = s.
Proof.
  intros H. induction k as [|k [IH1 IH2]].
  - cbn. destruct s as [|c s]; [auto|]. cbn [take_while drop_while].
    destruct (ceq c_nl c) eqn:E; [|auto]. apply N.eqb_eq in E. subst c. exfalso. apply H. now exists s.
  - change (crep (S k) c_nl ++ s) with (c_nl :: (crep k c_nl ++ s)). cbn [take_while drop_while].
    change (ceq c_nl c_nl) with true. cbv iota. rewrite IH1. auto.
Qed.

(** The token of leading newlines leaves no trace. *)
Definition trace (k : nat) : token := if 2 <=? k then Newline else Plaintext [c_nl].
Lemma trace_pre R P k : body R P (trace k) (pre (trace k) pinit) = Ret pinit.
Proof. unfold trace. destruct (2 <=? k); vm_compute; reflexivity. Qed.

Lemma lex_nls f k s : 1 <= k -> ~ (exists r, s = c_nl :: r) ->
  lex (S f) (crep k c_nl ++ s) [] =
  bind (lex_loop (lex f) (fun s ig => bind (lex f s ig) (parse f)) f (S (length s)) [] (Some (trace k)) s)
       (fun ts => Ret (trace k :: ts)).
Proof.
  intros K H. cbn [lex].
  rewrite (lex_loop_enough _ _ _ (S (length s)) (length (crep k c_nl ++ s)));
    [|lia|rewrite app_length; unfold crep; rewrite repeat_length; lia].
  generalize (length (crep k c_nl ++ s)) as n. intros n. cbn [lex_loop].
  assert (next_token (lex f) (fun s ig => bind (lex f s ig) (parse f)) f [] None (crep k c_nl ++ s) =
    Ret (Some (trace k, s))) as E.
  { destruct k as [|k]; [lia|].
    change (crep (S k) c_nl ++ s) with (c_nl :: (crep k c_nl ++ s)). cbn [next_token].
    change (c_nl :: (crep k c_nl ++ s)) with (crep (S k) c_nl ++ s).
    unfold dispatch. change (ceq c_nl c_hash && negb (mem_char c_hash [])) with false.
    change (ceq c_nl c_nl) with true. cbv iota. cbn [bind]. unfold lex_newlines, consume_while.
    destruct (take_nls (S k) s H) as [A B]. rewrite A, B. unfold trace, crep. rewrite repeat_length.
    destruct k; reflexivity. }
  now rewrite E.
Qed.

(** Leading newlines in any number are like one. *)
Lemma render_nls f k s : 1 <= k -> ~ (exists r, s = c_nl :: r) ->
  render f (crep k c_nl ++ s) = render f (c_nl :: s).
Proof.
  intros K H. destruct f as [|f]; [reflexivity|]. unfold render, render_ignore.
  change (c_nl :: s) with (crep 1 c_nl ++ s). rewrite !lex_nls by (auto; lia).
  assert (forall l1 l2, (last_is_plaintext l1 || last_is_newline l1) = (last_is_plaintext l2 || last_is_newline l2) ->
    lex_loop (lex f) (fun s ig => bind (lex f s ig) (parse f)) f (S (length s)) [] l1 s =
    lex_loop (lex f) (fun s ig => bind (lex f s ig) (parse f)) f (S (length s)) [] l2 s) as T.
  { intros l1 l2 E. cbn [lex_loop]. f_equal. destruct s as [|c r]; [reflexivity|]. cbn [next_token]. f_equal.
    unfold dispatch. destruct (_ && _); [reflexivity|]. destruct (ceq c c_nl); [reflexivity|].
    destruct (ceq c c_sp || ceq c c_tab); [|reflexivity]. unfold lex_tabs_spaces.
    assert (forall n r, lex_tabs_spaces_go n l1 r = lex_tabs_spaces_go n l2 r) as Q.
    { induction n as [|n IH]; intros x; [reflexivity|]. cbn [lex_tabs_spaces_go].
      destruct (consume_while is_sp_tab x) as [ws r1]. destruct (_ && _ && _); [reflexivity|].
      destruct (_ && _); [reflexivity|]. destruct (consume_until_tail_is [c_nl] r1) as [line r2].
      rewrite E, IH. reflexivity. }
    now rewrite Q. }
  rewrite (T (Some (trace k)) (Some (trace 1))) by (unfold trace; destruct (2 <=? k); reflexivity).
  destruct (lex_loop _ _ _ _ _ _ _) as [ts| |]; cbn [bind]; try reflexivity.
  cbn [parse]. unfold parse_body. cbn [parse_loop]. now rewrite !trace_pre.
Qed.

(** One leading newline makes no difference if the line behind it is not indented. *)
Lemma render_nl f s : ~ (exists r, s = c_nl :: r) -> ~ indented s -> render f (c_nl :: s) = render f s.
Proof.
  intros H D. destruct f as [|f]; [reflexivity|]. unfold render, render_ignore.
  change (c_nl :: s) with (crep 1 c_nl ++ s). rewrite lex_nls by (auto; lia).
  rewrite (lex_loop_last _ _ _ _ [] (Some (trace 1)) None s D). cbn [lex].
  destruct (lex_loop _ _ _ _ _ _ _) as [ts| |]; cbn [bind]; try reflexivity.
Qed.

Lemma nls_or_not s : exists k t, s = crep k c_nl ++ t /\ ~ (exists r, t = c_nl :: r).
Proof.
  induction s as [|c s IH]; [exists 0, []; split; [reflexivity|]; intros [r E]; discriminate E|].
  destruct (N.eq_dec c c_nl) as [->|N].
  - destruct IH as (k & t & -> & H). exists (S k), t. auto.
  - exists 0, (c :: s). split; [reflexivity|]. intros [r E]. congruence.
Qed.

Theorem render_lead f k s : ~ indented s -> render f (crep k c_nl ++ s) = render f s.
Proof.
  intros D. destruct k as [|k]; [reflexivity|].
  destruct (nls_or_not s) as (j & t & -> & H). destruct j as [|j].
  - cbn [crep repeat app]. change (c_nl :: repeat c_nl k ++ t) with (crep (S k) c_nl ++ t).
    rewrite render_nls by (auto; lia). now apply render_nl.
  - rewrite (render_nls f (S j) t) by (auto; lia). rewrite app_assoc. unfold crep. rewrite <- repeat_app.
    apply render_nls; [lia|exact H].
Qed.
