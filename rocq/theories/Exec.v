(** * Exec: big-step relations for the lexer and the parser, to compute the exact
    output of families of documents. *)
From Coq Require Import Ascii String.
From Verif Require Import Strings StringsFacts Token Iter Lexer Parser LexerFacts LexMono.
Open Scope list_scope.

(** One token: the lexer with previous token [last], ignored characters [ig] and
    remaining text [r] produces [t] and leaves [r']. *)
Definition tok_step (ig : list char) (last : option token) (r : str) (t : token) (r' : str) : Prop :=
  exists f, next_token (lex f) (render_ignore f) f ig last r = Ret (Some (t, r')).

Inductive steps (ig : list char) : option token -> str -> list token -> option token -> str -> Prop :=
| steps_nil last r : steps ig last r [] last r
| steps_cons last r t r' ts last' r'' :
    tok_step ig last r t r' -> steps ig (Some t) r' ts last' r'' ->
    steps ig last r (t :: ts) last' r''.

Lemma steps_app ig l0 r0 ts1 l1 r1 ts2 l2 r2 :
  steps ig l0 r0 ts1 l1 r1 -> steps ig l1 r1 ts2 l2 r2 -> steps ig l0 r0 (ts1 ++ ts2) l2 r2.
Proof. induction 1; intros H2; cbn [app]; [auto|]. econstructor; eauto. Qed.
Lemma steps_one ig last r t r' : tok_step ig last r t r' -> steps ig last r [t] (Some t) r'.
Proof. intros H. econstructor; [exact H | constructor]. Qed.

Lemma le_render_ignore f f' : f <= f' -> forall s ig, le_res (render_ignore f s ig) (render_ignore f' s ig).
Proof. intros H s ig. now apply render_ignore_mono. Qed.
Lemma tok_step_mono f f' ig last r : f <= f' ->
  le_res (next_token (lex f) (render_ignore f) f ig last r)
         (next_token (lex f') (render_ignore f') f' ig last r).
Proof.
  intros H. apply next_token_mono; auto.
  - intros. now apply lex_mono.
  - now apply le_render_ignore.
Qed.

Definition lexes (ig : list char) (s : str) (ts : list token) : Prop :=
  exists f, lex f s ig = Ret ts.
Lemma lexes_at ig s ts : lexes ig s ts -> exists F, forall f, F <= f -> lex f s ig = Ret ts.
Proof.
  intros [F H]. exists F. intros f L. eapply le_res_ret; [|exact H]. now apply lex_mono.
Qed.
Lemma steps_loop ig last r ts last' : steps ig last r ts last' [] ->
  exists F, forall f, F <= f -> forall n, length r < n ->
    lex_loop (lex f) (render_ignore f) f n ig last r = Ret ts.
Proof.
  intros H. remember [] as e eqn:E. induction H as [last r|last r t r' ts last' r'' [f0 H] _ IH]; subst.
  - exists 0. intros f _ [|n] L; [cbn in L; lia|]. reflexivity.
  - destruct (IH eq_refl) as [F HF]. exists (F + f0). intros f L [|n] Ln; [lia|]. cbn [lex_loop].
    rewrite (le_res_ret _ _ _ (tok_step_mono f0 f ig last r ltac:(lia)) H). cbn [bind].
    apply next_token_progress in H. apply ssuffix_length in H.
    rewrite HF by lia. reflexivity.
Qed.
Lemma steps_lexes ig s ts last : steps ig None s ts last [] -> lexes ig s ts.
Proof.
  intros H. apply steps_loop in H as [F H]. exists (S F).
  exact (H F (le_n F) (S (length s)) (Nat.lt_succ_diag_r _)).
Qed.

(** One token of the parser's loop. *)
Definition does (t : token) (p p' : pstate) : Prop :=
  exists f, body (render f) (parse f) t (pre t p) = Ret p'.
Lemma does_ret t p p' : (forall R PA, body R PA t (pre t p) = Ret p') -> does t p p'.
Proof. intros H. now exists 0. Qed.
Inductive plays : list token -> pstate -> pstate -> Prop :=
| plays_nil p : plays [] p p
| plays_cons t ts p p' p'' : does t p p' -> plays ts p' p'' -> plays (t :: ts) p p''.
Lemma plays_app ts1 ts2 p p1 p2 : plays ts1 p p1 -> plays ts2 p1 p2 -> plays (ts1 ++ ts2) p p2.
Proof. induction 1; intros H2; cbn [app]; [auto|]. econstructor; eauto. Qed.
Lemma plays_one t p p' : does t p p' -> plays [t] p p'.
Proof. intros H. econstructor; [exact H | constructor]. Qed.

Lemma does_mono f f' t p : f <= f' ->
  le_res (body (render f) (parse f) t p) (body (render f') (parse f') t p).
Proof.
  intros H. apply body_mono.
  - intros. now apply render_mono.
  - intros. now apply parse_mono.
Qed.
Definition parses (ts : list token) (h : str) : Prop := exists f, parse f ts = Ret h.
Lemma plays_loop ts p p' : plays ts p p' ->
  exists F, forall f, F <= f -> parse_loop (render f) (parse f) ts p = Ret p'.
Proof.
  induction 1 as [p|t ts p p' p'' [f0 H] _ [F IH]].
  - exists 0. reflexivity.
  - exists (F + f0). intros f L. cbn [parse_loop].
    rewrite (le_res_ret _ _ _ (does_mono f0 f t (pre t p) ltac:(lia)) H). cbn [bind]. apply IH. lia.
Qed.
Lemma plays_parses ts p : plays ts pinit p -> parses ts (finish p).
Proof.
  intros H. apply plays_loop in H as [F H]. exists (S F). cbn [parse]. unfold parse_body.
  change (fun s => bind (lex F s []) (parse F)) with (render F).
  rewrite (H F (le_n F)). reflexivity.
Qed.

Definition renders_ig (ig : list char) (s h : str) : Prop := exists f, render_ignore f s ig = Ret h.
Lemma lexes_renders ig s ts h : lexes ig s ts -> parses ts h -> renders_ig ig s h.
Proof.
  intros [f H] [g K]. exists (f + g). unfold render_ignore.
  rewrite (le_res_ret _ _ _ (lex_mono f (f + g) s ig ltac:(lia)) H). cbn [bind].
  exact (le_res_ret _ _ _ (parse_mono g (f + g) ts ltac:(lia)) K).
Qed.
Lemma exec ig s ts last p : steps ig None s ts last [] -> plays ts pinit p -> renders_ig ig s (finish p).
Proof. intros H K. eapply lexes_renders; [eapply steps_lexes, H | now apply plays_parses]. Qed.
Lemma exec_renders s ts last p : steps [] None s ts last [] -> plays ts pinit p -> renders s (finish p).
Proof. exact (exec [] s ts last p). Qed.
