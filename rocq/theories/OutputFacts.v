(** * OutputFacts: how the output ends, and how the lexer divides the source. *)
From Coq Require Import Ascii String.
From Verif Require Import Strings StringsFacts Token Iter Lexer Parser LexerFacts Master.
Open Scope list_scope.

Definition well_ended (h : str) : Prop :=
  (exists a, h = a ++ [c_nl]) \/ (exists a, h = a ++ lit "</code></pre>").

Lemma ends_nl_iff h : ends_nl h = true -> exists a, h = a ++ [c_nl].
Proof. apply ends_with_iff. Qed.
Lemma finish_ended p : well_ended (finish p).
Proof.
  unfold finish. set (h4 := _ ++ (if in_ordered_list p then _ else _)). clearbody h4.
  set (h5 := if ends_nl h4 then h4 else h4 ++ [c_nl]).
  assert (E5 : exists a, h5 = a ++ [c_nl]).
  { subst h5. destruct (ends_nl h4) eqn:E; [now apply ends_nl_iff | eauto]. }
  clearbody h5. set (h6 := if in_code p then _ else _).
  assert (E6 : well_ended h6).
  { subst h6. destruct (in_code p); [|now left]. right. eauto. }
  clearbody h6. unfold refs_html. destruct (references p) as [|r rs].
  - now rewrite app_nil_r.
  - left. eexists. rewrite !app_assoc. reflexivity.
Qed.
Lemma parse_ended f ts h : parse f ts = Ret h -> well_ended h.
Proof.
  destruct f as [|f]; [easy|]. cbn [parse]. unfold parse_body.
  destruct (parse_loop _ _ ts pinit) as [p| |]; cbn [bind]; try easy. ri. apply finish_ended.
Qed.
Lemma renders_ended s h : renders s h -> well_ended h.
Proof.
  intros [f E]. revert E. unfold render, render_ignore.
  destruct (lex f s []) as [ts| |]; cbn [bind]; try easy. apply parse_ended.
Qed.
Lemma well_ended_nonempty h : well_ended h -> h <> [].
Proof. intros [[a ->]|[a ->]] E; apply app_eq_nil in E as [_ E]; discriminate. Qed.

(** ** The pieces of the source *)
Lemma lex_loop_pieces LEX REN LOOP n ig last r ts :
  lex_loop LEX REN LOOP n ig last r = Ret ts ->
  exists pieces, r = concat pieces /\
    Forall2 (fun p t => p <> [] /\ exists last' rest,
               next_token LEX REN LOOP ig last' (p ++ rest) = Ret (Some (t, rest))) pieces ts.
Proof.
  revert last r ts; induction n as [|n IH]; intros last r ts; [easy|]. cbn [lex_loop].
  destruct (next_token _ _ _ ig last r) as [[[t r']|]| |] eqn:N; cbn [bind]; try easy.
  - destruct (lex_loop _ _ _ n ig (Some t) r') as [ts'| |] eqn:E; cbn [bind]; try easy.
    intros X. apply Ret_inj in X. subst ts. apply IH in E as (ps & -> & F).
    pose proof (next_token_progress _ _ _ _ _ _ _ _ N) as (c & x & ->).
    exists ((c :: x) :: ps). split; [reflexivity|]. constructor; [|auto].
    split; [easy|]. exists last, (concat ps). exact N.
  - ri. exists []. destruct r as [|c r]; [split; [auto|constructor]|].
    exfalso. cbn [next_token] in N. revert N. destruct (dispatch _ _ _ _ _ _ _) as [[]| |]; easy.
Qed.
Lemma Forall2_len {A B} (R : A -> B -> Prop) l m : Forall2 R l m -> length l = length m.
Proof. induction 1; cbn; congruence. Qed.
Lemma concat_length_ge (ps : list str) : Forall (fun p => p <> []) ps -> length ps <= length (concat ps).
Proof.
  induction 1 as [|p ps H F IH]; cbn; [auto|]. rewrite app_length.
  destruct p; [easy|]. cbn. lia.
Qed.
Lemma lex_token_count f s ig ts : lex f s ig = Ret ts -> length ts <= length s.
Proof.
  destruct f as [|f]; [easy|]. cbn [lex]. intros H. apply lex_loop_pieces in H as (ps & -> & F).
  rewrite <- (Forall2_len _ _ _ F). apply concat_length_ge.
  induction F as [|p t ps ts [H _] F IH]; constructor; auto.
Qed.
