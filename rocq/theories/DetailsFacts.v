(** * DetailsFacts: searching for tags, and documents on which rendering never ends. *)
From Coq Require Import Ascii String.
From Verif Require Import Strings StringsFacts Token Iter Lexer Parser LexerFacts.
Open Scope list_scope.

(** ** [consume_until_tail_is] stops at the first occurrence *)
Lemma consume_until_tail_go_first tail b acc z :
  ends_with tail (acc ++ b) = true ->
  (forall p q, b = p ++ q -> q <> [] -> ends_with tail (acc ++ p) = false) ->
  consume_until_tail_go tail acc (b ++ z) = (acc ++ b, z).
Proof.
  revert acc; induction b as [|c b IH]; intros acc H N.
  - rewrite app_nil_r in H. cbn [app]. rewrite app_nil_r. destruct z; cbn; [auto|]. now rewrite H.
  - cbn. rewrite <- (app_nil_r acc) at 1. rewrite (N [] (c :: b)) by easy.
    rewrite IH.
    + now rewrite <- app_assoc.
    + now rewrite <- app_assoc.
    + intros p q E Q. rewrite <- app_assoc. apply (N (c :: p) q); [now rewrite E | auto].
Qed.
Lemma consume_until_tail_first tail b z :
  ends_with tail b = true ->
  (forall p q, b = p ++ q -> q <> [] -> ends_with tail p = false) ->
  consume_until_tail_is tail (b ++ z) = (b, z).
Proof. intros H N. now apply (consume_until_tail_go_first tail b [] z). Qed.
Lemma consume_until_tail_none tail b :
  (forall p q, b = p ++ q -> q <> [] -> ends_with tail p = false) ->
  consume_until_tail_is tail b = (b, []).
Proof.
  intros N. unfold consume_until_tail_is. enough (A : forall acc,
    (forall p q, b = p ++ q -> q <> [] -> ends_with tail (acc ++ p) = false) ->
    consume_until_tail_go tail acc b = (acc ++ b, [])) by now apply A.
  clear N. induction b as [|c b IH]; intros acc N; cbn; [now rewrite app_nil_r|].
  rewrite <- (app_nil_r acc) at 1. rewrite (N [] (c :: b)) by easy.
  rewrite IH; [now rewrite <- app_assoc|].
  intros p q E Q. rewrite <- app_assoc. apply (N (c :: p) q); [now rewrite E | auto].
Qed.

(** Where the first of two equal characters can be. *)
Lemma first_char_split (c : char) x u q v :
  ~ In c x -> x ++ c :: u = q ++ c :: v ->
  (q = x /\ u = v) \/ exists q', q = x ++ c :: q' /\ u = q' ++ c :: v.
Proof.
  revert q; induction x as [|d x IH]; intros q N E.
  - destruct q as [|e q]; cbn in E; [injection E as E1; left; auto|].
    injection E as E1 E2. right. subst. exists q. auto.
  - destruct q as [|e q]; cbn in E; injection E as E1 E2.
    + exfalso. apply N. now left.
    + subst e. destruct (IH q) as [[-> ->]|(q' & -> & ->)]; auto.
      * intros I; apply N; now right.
      * right. exists q'. auto.
Qed.

(** ** Counting occurrences *)
Lemma count_go_skip p n a s : length a = n -> count_go p n (a ++ s) = count_go p 0 s.
Proof. revert a; induction n as [|n IH]; intros [|c a] L; try easy. cbn in *. apply IH. lia. Qed.
Lemma count_hit c p s : count_matches (c :: p) ((c :: p) ++ s) = S (count_matches (c :: p) s).
Proof.
  unfold count_matches. cbn [app count_go].
  change (c :: p ++ s) with ((c :: p) ++ s). rewrite starts_with_app. cbn [length].
  f_equal. apply count_go_skip. lia.
Qed.
Lemma count_miss c p x s : ~ In c x ->
  count_matches (c :: p) (x ++ s) = count_matches (c :: p) s.
Proof.
  unfold count_matches. induction x as [|d x IH]; intros N; [reflexivity|].
  cbn [app count_go starts_with]. destruct (ceq c d) eqn:E.
  - apply ceq_eq in E. subst. exfalso. apply N. now left.
  - cbn [andb]. apply IH. intros I. apply N. now right.
Qed.
Lemma count_none c p x : ~ In c x -> count_matches (c :: p) x = 0.
Proof. intros N. rewrite <- (app_nil_r x). rewrite count_miss by auto. reflexivity. Qed.

(** ** A details block whose end is missing *)
Definition o_tag : str := lit "<details>".
Definition c_tag : str := lit "</details>".

Lemma opens_open s : opens (o_tag ++ s) = S (opens s).
Proof. apply count_hit. Qed.
Lemma opens_close s : opens (c_tag ++ s) = opens s.
Proof.
  unfold opens. change (c_tag ++ s) with (c_lt :: lit "/details>" ++ s).
  transitivity (count_matches (lit "<details>") (lit "/details>" ++ s)); [reflexivity|].
  apply count_miss. vm_compute. intuition discriminate.
Qed.
Lemma opens_text x s : ~ In c_lt x -> opens (x ++ s) = opens s.
Proof. apply count_miss. Qed.
Lemma opens_plain x : ~ In c_lt x -> opens x = 0.
Proof. apply count_none. Qed.
Lemma closes_open s : closes (o_tag ++ s) = closes s.
Proof.
  unfold closes. change (o_tag ++ s) with (c_lt :: lit "details>" ++ s).
  transitivity (count_matches (lit "</details>") (lit "details>" ++ s)); [reflexivity|].
  apply count_miss. vm_compute. intuition discriminate.
Qed.
Lemma closes_close s : closes (c_tag ++ s) = S (closes s).
Proof. apply count_hit. Qed.
Lemma closes_text x s : ~ In c_lt x -> closes (x ++ s) = closes s.
Proof. apply count_miss. Qed.
Lemma closes_plain x : ~ In c_lt x -> closes x = 0.
Proof. apply count_none. Qed.

Lemma details_loop_stuck n start text :
  opens text = closes text -> substring_from start [] = text ->
  details_loop n start [] text = None.
Proof.
  intros H E. induction n as [|n IH]; cbn [details_loop]; rewrite H, Nat.eqb_refl; [auto|].
  change (consume_until_tail_is (lit "</details>") []) with (@nil char, @nil char).
  cbn iota beta. rewrite E. exact IH.
Qed.

Lemma no_close_prefix x y p q :
  ~ In c_lt x -> ~ In c_lt y -> x ++ o_tag ++ y ++ c_tag = p ++ q -> q <> [] ->
  ends_with c_tag p = false.
Proof.
  intros Nx Ny E Q. destruct (ends_with c_tag p) eqn:W; [exfalso|auto].
  apply ends_with_iff in W as [w ->]. rewrite <- app_assoc in E.
  change (x ++ c_lt :: (lit "details>" ++ y ++ c_tag) = w ++ c_lt :: (lit "/details>" ++ q)) in E.
  apply first_char_split in E as [[_ E]|(q' & _ & E)]; [discriminate E| |exact Nx].
  rewrite app_assoc in E.
  change ((lit "details>" ++ y) ++ c_lt :: lit "/details>" = q' ++ c_lt :: (lit "/details>" ++ q)) in E.
  apply first_char_split in E as [[_ E]|(q'' & _ & E)].
  - injection E as E. destruct q; easy.
  - assert (I : In c_lt (lit "/details>")) by (rewrite E; apply in_or_app; right; now left).
    revert I. vm_compute. intuition discriminate.
  - rewrite in_app_iff. intros [I|I]; [revert I; vm_compute; intuition discriminate | auto].
Qed.
Lemma no_close_plain p q x : ~ In c_lt x -> x = p ++ q -> ends_with c_tag p = false.
Proof.
  intros N ->. destruct (ends_with c_tag p) eqn:W; [exfalso|auto].
  apply ends_with_iff in W as [w ->]. apply N. rewrite !in_app_iff. left. right. now left.
Qed.

(** The outer block is opened and never closed; inner ones are opened and closed. *)
Definition inner (ps : list (str * str)) : str :=
  flat_map (fun p => fst p ++ o_tag ++ snd p ++ c_tag) ps.
Definition unclosed_details (summary : str) (ps : list (str * str)) (z : str) : str :=
  o_tag ++ [c_nl] ++ lit "<summary>" ++ summary ++ lit "</summary>" ++ [c_nl] ++ inner ps ++ z.
Definition no_lt_pair (p : str * str) : Prop := ~ In c_lt (fst p) /\ ~ In c_lt (snd p).

Lemma inner_counts ps z : Forall no_lt_pair ps ->
  opens (inner ps ++ z) = length ps + opens z /\ closes (inner ps ++ z) = length ps + closes z.
Proof.
  induction 1 as [|[x y] ps [Nx Ny] F [IH1 IH2]]; [auto|]. cbn [inner flat_map fst snd] in *.
  rewrite <- !app_assoc. rewrite opens_text, closes_text by auto.
  rewrite opens_open, closes_open, opens_text, closes_text by auto.
  rewrite opens_close, closes_close. change (flat_map _ ps) with (inner ps).
  rewrite IH1, IH2. auto.
Qed.
Lemma inner_loop n start t ps z : Forall no_lt_pair ps -> ~ In c_lt z ->
  start = t ++ inner ps ++ z ->
  (forall qs rs, ps = qs ++ rs -> opens (t ++ inner qs) = closes (t ++ inner qs)) ->
  opens start = closes start ->
  details_loop n start (inner ps ++ z) t = None.
Proof.
  intros F Nz. revert n t. induction F as [|[x y] ps [Nx Ny] F IH]; intros n t E H ES.
  - assert (H0 := H [] [] eq_refl). cbn [inner flat_map app] in *. rewrite app_nil_r in H0.
    destruct n as [|n]; cbn [details_loop]; rewrite H0, Nat.eqb_refl; [reflexivity|].
    rewrite (consume_until_tail_none _ z).
    2:{ intros p q Q _. apply (no_close_plain p q z); auto. }
    cbv iota beta. apply details_loop_stuck; [|reflexivity].
    rewrite <- (app_nil_r start). now rewrite substring_from_app.
  - assert (H0 := H [] ((x, y) :: ps) eq_refl). cbn [inner flat_map app] in H0. rewrite app_nil_r in H0.
    destruct n as [|n]; cbn [details_loop]; rewrite H0, Nat.eqb_refl; [reflexivity|].
    assert (ER : inner ((x, y) :: ps) ++ z = (x ++ o_tag ++ y ++ c_tag) ++ (inner ps ++ z)).
    { cbn [inner flat_map fst snd]. now rewrite <- !app_assoc. }
    rewrite ER, consume_until_tail_first.
    2:{ rewrite !app_assoc. apply ends_with_app. }
    2:{ intros p q. now apply no_close_prefix. }
    cbv iota beta.
    assert (ES2 : start = (t ++ x ++ o_tag ++ y ++ c_tag) ++ inner ps ++ z).
    { rewrite E, ER. now rewrite <- !app_assoc. }
    assert (SF : substring_from start (inner ps ++ z) = t ++ x ++ o_tag ++ y ++ c_tag).
    { rewrite ES2 at 1. apply substring_from_app. }
    rewrite SF. apply IH; auto. intros qs rs Q.
    specialize (H ((x, y) :: qs) rs). cbn [app] in H. rewrite Q in H. specialize (H eq_refl).
    cbn [inner flat_map fst snd] in H. rewrite <- !app_assoc in *. exact H.
Qed.

Lemma parse_details_stuck LEX LOOP summary ps z :
  ~ In c_nl summary -> ~ In c_cr summary ->
  ps <> [] -> Forall no_lt_pair ps -> ~ In c_lt z ->
  parse_details LEX LOOP (lit "<summary>" ++ summary ++ lit "</summary>" ++ [c_nl] ++ inner ps ++ z) = Hang.
Proof.
  intros Ns Nc NE F0 Nz. unfold parse_details, consume_while.
  set (f := fun c => _). set (b := [c_nl] ++ inner ps ++ z).
  assert (F : forallb f (lit "<summary>" ++ summary ++ lit "</summary>") = true).
  { rewrite !forallb_app. apply andb_true_iff. split; [reflexivity|].
    apply andb_true_iff. split; [|reflexivity]. apply forallb_forall. intros c I. unfold f.
    apply andb_true_iff. split; apply negb_true_iff, ceq_neq; intros ->; auto. }
  rewrite (app_assoc summary), (app_assoc (lit "<summary>")).
  fold b. rewrite take_while_app, drop_while_app by exact F.
  change (take_while f b) with (@nil char). change (drop_while f b) with b. rewrite app_nil_r.
  change (skip_if_eq c_cr b) with b.
  rewrite starts_with_app. rewrite app_assoc, ends_with_app. cbn [negb orb].
  rewrite <- app_assoc, strip_prefix_app, strip_suffix_app. cbn [or_empty].
  destruct ps as [|[x y] ps]; [easy|]. inversion F0 as [|? ? [Nx Ny] F1]; subst. cbn [fst snd] in Nx, Ny.
  set (t := ([c_nl] ++ x) ++ o_tag ++ y ++ c_tag).
  assert (EB : b = t ++ inner ps ++ z).
  { unfold b, t. cbn [inner flat_map fst snd]. now rewrite <- !app_assoc. }
  assert (Nx' : ~ In c_lt ([c_nl] ++ x)).
  { intros [I|I]; [discriminate I | auto]. }
  rewrite EB at 1. rewrite consume_until_tail_first.
  2:{ unfold t. rewrite !app_assoc. apply ends_with_app. }
  2:{ intros p q. now apply no_close_prefix. }
  cbv iota beta.
  match goal with |- context [contains ?a ?t] => replace (contains a t) with true end.
  2:{ symmetry. apply contains_iff. exists ([c_nl] ++ x), (y ++ c_tag). reflexivity. }
  assert (CT : forall qs w, Forall no_lt_pair qs -> ~ In c_lt w ->
    opens (t ++ inner qs ++ w) = closes (t ++ inner qs ++ w)).
  { intros qs w FQ Nw.
    replace (t ++ inner qs ++ w) with (inner (([c_nl] ++ x, y) :: qs) ++ w).
    2:{ unfold t. cbn [inner flat_map fst snd]. now rewrite <- !app_assoc. }
    destruct (inner_counts (([c_nl] ++ x, y) :: qs) w) as [-> ->].
    - constructor; [split; auto | auto].
    - now rewrite opens_plain, closes_plain. }
  rewrite inner_loop; [reflexivity| | | | |]; auto.
  - intros qs rs Q. specialize (CT qs []). rewrite app_nil_r in CT. apply CT; [|auto].
    rewrite Q in F1. now apply Forall_app in F1.
  - rewrite EB. now apply CT.
Qed.

Lemma unclosed_details_hangs summary ps z :
  ~ In c_nl summary -> ~ In c_cr summary ->
  ps <> [] -> Forall no_lt_pair ps -> ~ In c_lt z ->
  runs_forever (unclosed_details summary ps z).
Proof.
  intros Ns Nc NE F0 Nz [|f]; [reflexivity|].
  unfold render, render_ignore, unclosed_details. cbn [lex].
  set (b := lit "<summary>" ++ _).
  change (o_tag ++ [c_nl] ++ b) with (c_lt :: lit "details" ++ c_gt :: c_nl :: b).
  cbn [lex_loop]. cbn [next_token].
  match goal with |- context [dispatch ?L ?R ?N ?i ?l ?c ?r] =>
    change (dispatch L R N i l c r) with (lex_side_carrot L N r) end.
  unfold lex_side_carrot. cbn [next_if_eq]. rewrite ceq_refl. unfold consume_while.
  rewrite take_while_app, drop_while_app by reflexivity.
  rewrite take_while_stop, drop_while_stop by reflexivity. rewrite app_nil_r.
  cbn [next_if_eq]. rewrite ceq_refl. rewrite str_eqb_refl.
  change (skip_if_eq c_cr (c_nl :: b)) with (c_nl :: b). cbn [next_if_eq]. rewrite ceq_refl.
  unfold b. rewrite parse_details_stuck by auto. reflexivity.
Qed.
