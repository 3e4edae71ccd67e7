(** * Final: empty lines behind a document. *)
From Coq Require Import Ascii String.
From Verif Require Import Strings StringsFacts Token Iter Lexer Parser LexerFacts LexMono Alike Lead Local Sections MetaFacts.
Open Scope list_scope.

Section Final.
Variable LEX : str -> list char -> res (list token).
Variable REN : str -> list char -> res str.
Variable LOOP : nat.
Variable k : nat.
Let x : str := crep (S k) c_nl.

Lemma take_nl f r : f c_nl = false ->
  take_while f (r ++ x) = take_while f r /\ drop_while f (r ++ x) = drop_while f r ++ x.
Proof.
  intros F. induction r as [|c r [A B]]; cbn [app].
  - unfold x, crep. cbn [repeat take_while drop_while]. rewrite F. auto.
  - cbn [take_while drop_while]. destruct (f c); [|auto]. rewrite A, B. auto.
Qed.

Definition grow (o : option (token * cursor)) : option (token * cursor) :=
  match o with Some (t, r') => Some (t, r' ++ x) | None => None end.
Lemma calm_pair ig last c r : forallb calm (c :: r) = true -> ~ infix (lit "    ") (c :: r) ->
  (forall q, c :: r <> q ++ [c_hash]) ->
  next_token LEX REN LOOP ig last ((c :: r) ++ x) = rmap grow (next_token LEX REN LOOP ig last (c :: r)) \/
  exists j, c :: r = crep (S j) c_nl.
Proof.
  intros C I E. cbn [app next_token]. unfold dispatch. change (c :: r ++ x) with ((c :: r) ++ x).
  pose proof C as C0. cbn [forallb] in C. apply andb_prop in C as [C1 C2]. unfold calm in C1.
  apply andb_prop in C1 as [C1 C3]. apply negb_true_iff in C1, C3. rewrite C1.
  assert (forall d, In d (c_tab :: lit "*_-+>~`[<|\") -> ceq c d = false) as K.
  { intros d H. destruct (ceq c d) eqn:X; [|reflexivity]. apply N.eqb_eq in X. subst d.
    apply mem_char_iff in H. congruence. }
  destruct (ceq c c_hash && negb (mem_char c_hash ig)).
  { left. unfold lex_heading, consume_while. cbv beta iota.
    destruct (take_nl (ceq c_hash) (c :: r) eq_refl) as [-> ->].
    destruct (6 <? _); [reflexivity|].
    destruct (drop_while (ceq c_hash) (c :: r)) as [|d r1] eqn:D.
    { exfalso. pose proof (take_drop (ceq c_hash) (c :: r)) as T. rewrite D, app_nil_r in T.
      pose proof (take_while_forall (ceq c_hash) (c :: r)) as F. rewrite T in F.
      destruct (exists_last (l := c :: r)) as (q & z & Z); [discriminate|]. rewrite Z in F.
      rewrite forallb_app in F. apply andb_prop in F as [_ F]. cbn [forallb] in F. rewrite andb_true_r in F.
      apply N.eqb_eq in F. subst z. now elim (E q). }
    assert (heading_sep ((d :: r1) ++ x) = option_map (fun r => r ++ x) (heading_sep (d :: r1))) as ->.
    { unfold heading_sep. cbn [app next_if_eq peek_is]. destruct (ceq d c_sp); [reflexivity|].
      destruct (ceq d c_tab); [reflexivity|]. destruct (ceq d c_nl); reflexivity. }
    destruct (heading_sep (d :: r1)) as [r2|]; cbn [option_map]; [|reflexivity].
    destruct (take_nl not_nl r2 eq_refl) as [-> ->].
    destruct (heading_id (take_while not_nl r2)) as [line|]; [|reflexivity].
    destruct (forallb (ceq c_hash) line); [reflexivity|].
    destruct (REN _ _); reflexivity. }
  destruct (ceq c c_nl) eqn:CN.
  { apply N.eqb_eq in CN. subst c. unfold lex_newlines, consume_while. cbv beta iota.
    destruct (drop_while (ceq c_nl) (c_nl :: r)) as [|d r1] eqn:D.
    - right. exists (length r). pose proof (take_drop (ceq c_nl) (c_nl :: r)) as T. rewrite D, app_nil_r in T.
      pose proof (take_while_forall (ceq c_nl) (c_nl :: r)) as F. rewrite T in F. cbn [forallb] in F.
      apply andb_prop in F as [_ F]. unfold crep. cbn [repeat]. f_equal. clear -F.
      induction r as [|c r IH]; [reflexivity|]. cbn [forallb] in F. apply andb_prop in F as [A B].
      apply N.eqb_eq in A. subst c. cbn [length repeat]. f_equal. now apply IH.
    - left. destruct (take_ext x (ceq c_nl) (c_nl :: r)) as [-> ->]; [rewrite D; discriminate|]. rewrite D.
      destruct (2 <=? _); reflexivity. }
  left. apply N.eqb_neq in CN.
  assert (ceq c c_tab = false) as -> by (apply K; now left). rewrite orb_false_r.
  destruct (ceq c c_sp) eqn:CS.
  { unfold lex_tabs_spaces. cbn [app length lex_tabs_spaces_go]. change (c :: r ++ x) with ((c :: r) ++ x).
    unfold consume_while. cbv beta iota.
    destruct (take_nl is_sp_tab (c :: r) eq_refl) as [-> ->].
    assert (contains_char c_tab (take_while is_sp_tab (c :: r)) = false) as T.
    { apply contains_char_false. intros H. apply (infix_In _ _ _ (infix_take_while is_sp_tab (c :: r))) in H.
      rewrite forallb_forall in C0. specialize (C0 _ H). discriminate C0. }
    rewrite T.
    assert (1 <= length (take_while is_sp_tab (c :: r)) <= 3) as [L1 L2].
    { split.
      - cbn [take_while]. unfold is_sp_tab at 1. rewrite CS, orb_true_r. cbn. lia.
      - destruct (Nat.le_gt_cases (length (take_while is_sp_tab (c :: r))) 3) as [|G]; [assumption|]. exfalso. apply I.
        eapply infix_trans; [|apply (infix_take_while is_sp_tab)]. apply contains_char_false in T.
        pose proof (take_while_forall is_sp_tab (c :: r)) as F.
        destruct (take_while is_sp_tab (c :: r)) as [|a [|b [|d [|e w]]]]; cbn in G; try lia.
        cbn [forallb] in F. repeat (apply andb_prop in F as [? F]).
        assert (forall z, In z [a; b; d; e] -> is_sp_tab z = true -> z = c_sp) as Z.
        { intros z Hz Sz. unfold is_sp_tab in Sz. apply orb_prop in Sz as [Sz|Sz]; apply N.eqb_eq in Sz; [|exact Sz].
          exfalso. apply T. subst z. cbn [In] in *. tauto. }
        rewrite (Z a), (Z b), (Z d), (Z e) by (cbn [In]; tauto). exists [], w. reflexivity. }
    apply Nat.leb_le in L1, L2. rewrite L1, L2. reflexivity. }
  rewrite !K by (cbn; tauto). cbn [orb].
  destruct (ceq c c_bang) eqn:CB.
  { unfold lex_images. cbn [app next_if_eq]. rewrite CB.
    assert (forall y, match y with d :: _ => ceq d c_lbrk | [] => false end = false -> lex_links y = Ret (LErr [] y)) as LL.
    { intros y H. unfold lex_links. destruct y as [|d y]; [reflexivity|]. cbn [next_if_eq]. now rewrite H. }
    rewrite !LL.
    - cbn [bind rmap grow]. change (c :: r ++ x) with ((c :: r) ++ x). now rewrite sub_ext.
    - destruct r as [|d r]; [reflexivity|]. cbn [forallb] in C2. apply andb_prop in C2 as [C2 _].
      destruct (ceq d c_lbrk) eqn:X; [|reflexivity]. apply N.eqb_eq in X. subst d. discriminate C2.
    - destruct r as [|d r]; [reflexivity|]. cbn [app forallb] in *. apply andb_prop in C2 as [C2 _].
      destruct (ceq d c_lbrk) eqn:X; [|reflexivity]. apply N.eqb_eq in X. subst d. discriminate C2. }
  rewrite (K c_lt), (K c_pipe), (K c_bslash) by (cbn; tauto). reflexivity.
Qed.

(** The tokens with the empty lines behind. *)
Inductive tokens_more : res (list token) -> res (list token) -> Prop :=
| more_end ts : tokens_more (Ret ts) (Ret (ts ++ [trace (S k)]))
| more_last ts j : tokens_more (Ret (ts ++ [trace (S j)])) (Ret (ts ++ [Newline]))
| more_panic : tokens_more Panic Panic
| more_hang : tokens_more Hang Hang.
Lemma more_cons t X Y : tokens_more X Y ->
  tokens_more (bind X (fun ts => Ret (t :: ts))) (bind Y (fun ts => Ret (t :: ts))).
Proof. intros []; cbn [bind]; [exact (more_end (t :: ts))|exact (more_last (t :: ts) j)|constructor|constructor]. Qed.

Lemma trace_token ig last j : next_token LEX REN LOOP ig last (crep (S j) c_nl) = Ret (Some (trace (S j), [])).
Proof.
  unfold crep. cbn [repeat next_token]. unfold dispatch. change (ceq c_nl c_hash) with false.
  change (ceq c_nl c_nl) with true. cbn [andb]. cbv iota. unfold lex_newlines, consume_while. cbv beta iota.
  change (c_nl :: repeat c_nl j) with (crep (S j) c_nl).
  destruct (take_nls (S j) []) as [A B]; [intros [r H]; discriminate H|]. rewrite app_nil_r in A, B. rewrite A, B.
  unfold crep, trace. rewrite repeat_length. destruct j; reflexivity.
Qed.
Lemma calm_more ig n m last r : forallb calm r = true -> ~ infix (lit "    ") r -> (forall q, r <> q ++ [c_hash]) ->
  length r < n -> length (r ++ x) < m ->
  tokens_more (lex_loop LEX REN LOOP n ig last r) (lex_loop LEX REN LOOP m ig last (r ++ x)).
Proof.
  revert m last r; induction n as [|n IH]; intros m last r C I E L M; [lia|]. destruct m as [|m]; [lia|].
  destruct r as [|c r].
  - cbn [app] in *. cbn [lex_loop]. unfold x. rewrite trace_token. cbn [bind next_token].
    destruct m as [|m]; [unfold x, crep in M; rewrite repeat_length in M; lia|]. cbn [lex_loop next_token bind].
    exact (more_end []).
  - generalize (app_length (c :: r) x). intros Lx.
    destruct (calm_pair ig last c r C I E) as [P|[j ->]].
    + cbn [lex_loop]. rewrite P.
      destruct (next_token LEX REN LOOP ig last (c :: r)) as [[[t r']|]| |] eqn:N; cbn [rmap grow bind]; try constructor.
      2:{ exfalso. cbn [next_token] in N. destruct (dispatch _ _ _ _ _ _ _) as [[]| |]; discriminate N. }
      pose proof (next_token_progress _ _ _ _ _ _ _ _ N) as S.
      pose proof (ssuffix_length _ _ S) as SL. apply ssuffix_suffix in S.
      apply more_cons. apply IH.
      * destruct S as [p S]. rewrite S, forallb_app in C. now apply andb_prop in C as [_ C].
      * intros H; apply I; eapply infix_trans; [exact H|now apply suffix_infix].
      * intros q ->. destruct S as [p S]. rewrite app_assoc in S. now elim (E (p ++ q)).
      * cbn [length] in *. lia.
      * rewrite app_length. cbn [length] in *. lia.
    + cbn [lex_loop]. unfold x. replace (crep (S j) c_nl ++ crep (S k) c_nl) with (crep (S (S (j + k))) c_nl).
      2:{ unfold crep. rewrite <- repeat_app. f_equal. lia. }
      rewrite !trace_token. cbn [bind]. change (trace (S (S (j + k)))) with Newline.
      destruct n as [|n]; [cbn in L; lia|]. destruct m as [|m]; [rewrite Lx in M; unfold crep in M; cbn in M; lia|]. cbn [lex_loop next_token bind].
      exact (more_last [] j).
Qed.
End Final.

(** An empty line at the end leaves no trace. *)
Lemma finish_newline R P p : exists q, body R P Newline (pre Newline p) = Ret q /\ finish q = finish p.
Proof.
  exists (pre Newline p). split; [reflexivity|]. cbn [pre is_list_or_newline is_task_or_newline is_inline is_par_closer is_quote_or_newline].
  destruct (in_ordered_list p || in_unordered_list p) eqn:L; [reflexivity|]. apply orb_false_iff in L as [L1 L2].
  cbn [andb]. destruct (in_task_list p) eqn:T; [reflexivity|]. cbn [andb]. rewrite L1, L2.
  destruct (in_paragraph p) eqn:Q.
  - rewrite !finish_nlz. unfold stretch, trail, push, set_par.
    cbn [html quote_level in_task_list in_paragraph in_ordered_list in_unordered_list in_code references].
    rewrite L1, L2, T, Q. now rewrite <- !app_assoc.
  - destruct (negb (quote_level p =? 0)); reflexivity.
Qed.
Lemma finish_trace R P j p : exists q, body R P (trace (S j)) (pre (trace (S j)) p) = Ret q /\ finish q = finish p.
Proof. unfold trace. destruct (2 <=? S j); [apply finish_newline|]. exists p. split; reflexivity. Qed.

Lemma parse_more f k us X Y : tokens_more k X Y ->
  bind X (fun ts => parse f (us ++ ts)) = bind Y (fun ts => parse f (us ++ ts)).
Proof.
  intros []; cbn [bind]; try reflexivity; (destruct f as [|f]; [reflexivity|]); cbn [parse]; unfold parse_body; rewrite ?app_assoc.
  - rewrite (loop_app _ _ (us ++ ts) [trace (S k)]).
    destruct (parse_loop _ _ (us ++ ts) pinit) as [p| |]; cbn [bind parse_loop]; try reflexivity.
    destruct (finish_trace (fun s => bind (lex f s []) (parse f)) (parse f) k p) as (q & -> & F). cbn [bind]. now rewrite F.
  - rewrite !(loop_app _ _ (us ++ ts) [_]).
    destruct (parse_loop _ _ (us ++ ts) pinit) as [p| |]; cbn [bind parse_loop]; try reflexivity.
    destruct (finish_trace (fun s => bind (lex f s []) (parse f)) (parse f) j p) as (q & -> & F).
    destruct (finish_newline (fun s => bind (lex f s []) (parse f)) (parse f) p) as (q' & -> & F'). cbn [bind]. now rewrite F, F'.
Qed.

Lemma same_runs_from f0 s t : (forall f, f0 <= f -> render f s = render f t) -> same_end s t.
Proof.
  assert (forall s t, (forall f, f0 <= f -> render f s = render f t) ->
    (forall h, renders s h -> renders t h) /\ (crashes s -> crashes t) /\ (runs_forever s -> runs_forever t)) as G.
  { clear. intros s t E. split; [|split].
    - intros h [f H]. exists (f + f0). rewrite <- E by lia. eapply le_res_ret; [|exact H]. apply render_mono. lia.
    - intros [f H]. exists (f + f0). rewrite <- E by lia. eapply le_res_panic; [|exact H]. apply render_mono. lia.
    - intros H f. specialize (H (f + f0)). rewrite E in H by lia.
      destruct (render f t) as [a| |] eqn:R; [| |reflexivity].
      + pose proof (le_res_ret _ _ _ (render_mono f (f + f0) t ltac:(lia)) R). congruence.
      + pose proof (le_res_panic _ _ (render_mono f (f + f0) t ltac:(lia)) R). congruence. }
  intros E. destruct (G s t E) as (A & B & C).
  destruct (G t s) as (A' & B' & C'); [intros f F; symmetry; now apply E|].
  split; [split; auto|split; split; auto].
Qed.

(** The document ends behind an empty line of the top level, or has not begun. *)
Definition at_top (s : str) : Prop := s = [] \/ exists f ts, lex f s [] = Ret (ts ++ [Newline]).

Theorem final_alike s w k : at_top s -> forallb calm w = true -> ~ infix (lit "    ") w ->
  (forall q, w <> q ++ [c_hash]) -> same_end (s ++ w ++ crep k c_nl) (s ++ w).
Proof.
  intros S C I E. destruct k as [|k]; [rewrite app_nil_r; apply same_runs; reflexivity|].
  destruct S as [->|(f0 & ts & L0)].
  - apply same_runs. intros [|f]; [reflexivity|]. cbn [app]. unfold render, render_ignore. cbn [lex].
    symmetry. apply (parse_more (S f) k []). apply calm_more; auto.
  - apply (same_runs_from (S f0)). intros [|f] Hf; [lia|].
    assert (lex (S f) s [] = Ret (ts ++ [Newline])) as L.
    { eapply le_res_ret; [|exact L0]. apply lex_mono; lia. }
    cbn [lex] in L.
    assert (forall y, (forall r, y <> c_tab :: r) -> lex (S f) (s ++ y) [] =
      bind (lex_loop (lex f) (fun s ig => bind (lex f s ig) (parse f)) f (S (length (drop_while (ceq c_nl) y))) []
        (Some Newline) (drop_while (ceq c_nl) y)) (fun ts' => Ret (ts ++ Newline :: ts'))) as G.
    { intros y Y. cbn [lex]. eapply (closed_ext _ _ _ y Y); [|exact L|lia].
      intros m M. apply lex_loop_enough; lia. }
    unfold render, render_ignore. rewrite !G.
    2:{ intros r ->. discriminate C. }
    2:{ intros r. destruct w as [|c w]; [discriminate|]. intros [= -> _]. discriminate C. }
    set (y := drop_while (ceq c_nl) w).
    assert (suffix y w) as Y by apply suffix_drop_while.
    assert (drop_while (ceq c_nl) (w ++ crep (S k) c_nl) = if is_empty y then [] else y ++ crep (S k) c_nl) as ->.
    { unfold y. destruct (drop_while (ceq c_nl) w) as [|d r] eqn:D; cbn [is_empty].
      - pose proof (take_drop (ceq c_nl) w) as T. rewrite D, app_nil_r in T.
        rewrite <- T, drop_while_app by apply take_while_forall. apply drop_while_all. clear. induction (S k); [reflexivity|assumption].
      - destruct (take_ext (crep (S k) c_nl) (ceq c_nl) w) as [_ ->]; [rewrite D; discriminate|]. now rewrite D. }
    clear L G L0.
    set (P := fun s0 ig => bind (lex f s0 ig) (parse f)).
    transitivity (bind (lex_loop (lex f) P f (S (length y)) [] (Some Newline) y) (fun ts' => parse (S f) ((ts ++ [Newline]) ++ ts'))).
    2:{ destruct (lex_loop _ _ _ _ _ _ _) as [z| |]; [|reflexivity|reflexivity]. cbn [bind]. now rewrite <- app_assoc. }
    destruct (is_empty y) eqn:Ye.
    { destruct y; [|discriminate]. cbn [lex_loop length next_token bind]. now rewrite <- app_assoc. }
    transitivity (bind (lex_loop (lex f) P f (S (length (y ++ crep (S k) c_nl))) [] (Some Newline) (y ++ crep (S k) c_nl))
      (fun ts' => parse (S f) ((ts ++ [Newline]) ++ ts'))).
    { destruct (lex_loop _ _ _ _ _ _ _) as [z| |]; [|reflexivity|reflexivity]. cbn [bind]. now rewrite <- app_assoc. }
    symmetry. apply (parse_more (S f) k). apply calm_more; try lia.
    + destruct Y as [p Y]. rewrite Y, forallb_app in C. now apply andb_prop in C as [_ C].
    + intros H; apply I; eapply infix_trans; [exact H|now apply suffix_infix].
    + intros q Q. destruct Y as [p Y]. rewrite Q, app_assoc in Y. now elim (E (p ++ q)).
Qed.

Lemma final_differs : forall s, In s [lit "#"; lit "*a"; lit "***"; lit "a    "] ->
  exists h1 h2, renders s h1 /\ renders (s ++ [c_nl]) h2 /\ h1 <> h2.
Proof.
  intros s [<-|[<-|[<-|[<-|[]]]]]; eexists; eexists;
    (split; [exists 9; vm_compute; reflexivity|split; [exists 9; vm_compute; reflexivity|discriminate]]).
Qed.
Lemma final_ex :
  let s := lit "- a" ++ [c_nl; c_nl; c_nl] in let w := lit "## b" ++ [c_nl] ++ lit "c." in
  at_top s /\ forallb calm w = true /\ ~ infix (lit "    ") w /\ (forall q, w <> q ++ [c_hash]).
Proof.
  cbv zeta. split; [|split; [|split]].
  - right. exists 9. eexists [_]. vm_compute. reflexivity.
  - vm_compute. reflexivity.
  - intros H. apply contains_iff in H. vm_compute in H. discriminate H.
  - intros q H. apply (f_equal (@rev char)) in H. rewrite (rev_app_distr q) in H. vm_compute in H. discriminate H.
Qed.
