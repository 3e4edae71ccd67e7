(** * PythonFacts: which versions Python knows, and in which order. *)
From Coq Require Import Ascii String.
From Verif Require Import Strings StringsFacts Release SpecRelease NumberFacts Python SpecPython.
From Verif Require Safety.
Open Scope list_scope.

(** ** Numbers *)
Lemma dec_digits n : forallb is_digit (dec n) = true.
Proof. apply forallb_forall. intros c. apply Safety.dec_digit. Qed.

Lemma dec_number n : number (dec n) = n.
Proof.
  assert (H : number_of (dec n) = Some n) by now apply number_of_dec.
  unfold number_of in H. destruct (dec n) as [|c r]; [discriminate|].
  destruct (numeric (c :: r) && (negb (N.eqb c 48) || is_empty r)); [|discriminate]. congruence.
Qed.

Lemma dec_cons n : exists c r, dec n = c :: r /\ is_digit c = true.
Proof.
  pose proof (dec_digits n) as D. assert (H : number_of (dec n) = Some n) by now apply number_of_dec.
  destruct (dec n) as [|c r]; [discriminate H|]. exists c, r. split; [reflexivity|]. cbn in D. now apply andb_true_iff in D.
Qed.

Lemma dec_match A n (a b : A) : match dec n with [] => a | _ :: _ => b end = b.
Proof. destruct (dec_cons n) as (c & r & E & _). now rewrite E. Qed.

Definition no_digit (s : str) : Prop := match s with c :: _ => is_digit c = false | [] => True end.

Lemma digits_of_dec n r : no_digit r -> digits_of (dec n ++ r) = (dec n, r).
Proof.
  intros H. unfold digits_of. rewrite take_while_app, drop_while_app by apply dec_digits.
  destruct r as [|c r]; [cbn; now rewrite app_nil_r|]. cbn [no_digit] in H.
  rewrite take_while_stop, drop_while_stop by exact H. now rewrite app_nil_r.
Qed.

Lemma lower_digit c : is_digit c = true -> to_lower_c c = c.
Proof. unfold is_digit, to_lower_c. intros H. apply andb_true_iff in H as [A B]. apply N.leb_le in A, B.
  destruct (N.leb 65 c) eqn:E; [apply N.leb_le in E; lia|reflexivity]. Qed.

Lemma lower_dec n : to_lowercase (dec n) = dec n.
Proof.
  unfold to_lowercase. pose proof (dec_digits n) as D. induction (dec n) as [|c r IH]; [reflexivity|].
  cbn [forallb] in D. apply andb_true_iff in D as [A B]. cbn [map]. now rewrite (lower_digit c A), IH.
Qed.

Lemma lower_app a b : to_lowercase (a ++ b) = to_lowercase a ++ to_lowercase b.
Proof. apply map_app. Qed.

(** What may be behind the numbers. *)
Definition behind (t : str) : Prop :=
  no_digit t /\ match t with c :: r => c <> c_dot /\ c <> c_bang | [] => True end.

Lemma more_numbers_end f t : behind t -> more_numbers f t = ([], t).
Proof.
  intros [_ H]. destruct f, t as [|c r]; try reflexivity. cbn [more_numbers].
  assert (E : ceq c c_dot = false) by (apply N.eqb_neq, H). now rewrite E.
Qed.

Lemma more_numbers_dec f n t : no_digit t -> more_numbers (S f) (lit "." ++ dec n ++ t) =
  let '(l, r) := more_numbers f t in (n :: l, r).
Proof.
  intros H. change (lit "." ++ dec n ++ t) with (c_dot :: dec n ++ t).
  assert (R : more_numbers (S f) (c_dot :: dec n ++ t) =
    match digits_of (dec n ++ t) with ([], _) => ([], c_dot :: dec n ++ t)
    | (d, r') => let '(l, t') := more_numbers f r' in (number d :: l, t') end) by reflexivity.
  rewrite R, digits_of_dec by exact H. cbv beta iota. now rewrite dec_match, dec_number.
Qed.

Lemma fuel_enough (x y z : nat) t : exists f, length (lit "." ++ dec y ++ lit "." ++ dec z ++ t) = S (S f).
Proof.
  rewrite !app_length. cbn [length lit]. exists (length (dec y) + length (dec z) + length t). lia.
Qed.

Lemma read_numbered x y z t : behind (to_lowercase t) ->
  read_python (numbered x y z t) = read_tail 0 [x; y; z] (to_lowercase t).
Proof.
  intros H. unfold read_python, numbered. rewrite !lower_app, !lower_dec.
  change (to_lowercase (lit ".")) with (lit "."). set (t' := to_lowercase t) in *.
  destruct (dec_cons x) as (c & r & E & D).
  assert (V : forall u, (match dec x ++ u with c :: r => if ceq c 118%N then r else dec x ++ u | [] => dec x ++ u end) = dec x ++ u).
  { intros u. rewrite E. cbn [app]. assert (F : ceq c 118%N = false).
    { unfold ceq. apply N.eqb_neq. intros ->. discriminate D. } now rewrite F. }
  rewrite V. rewrite digits_of_dec by (cbn; reflexivity).
  cbv beta iota. rewrite dec_match.
  change (lit "." ++ dec y ++ lit "." ++ dec z ++ t') with (c_dot :: dec y ++ lit "." ++ dec z ++ t').
  cbv beta iota. change (ceq c_dot c_bang) with false. cbv beta iota. rewrite dec_match, dec_number.
  change (c_dot :: dec y ++ lit "." ++ dec z ++ t') with (lit "." ++ dec y ++ lit "." ++ dec z ++ t').
  destruct (fuel_enough x y z t') as (f & F). rewrite F, more_numbers_dec by (cbn; reflexivity).
  rewrite more_numbers_dec by apply H. rewrite more_numbers_end by exact H. reflexivity.
Qed.

(** ** Pre-releases *)
Lemma opt_number_dec n : opt_number (lit "." ++ dec n) = (n, []).
Proof.
  unfold opt_number. change (skip_sep (lit "." ++ dec n)) with (dec n).
  rewrite <- (app_nil_r (dec n)) at 1. rewrite digits_of_dec by exact I. now rewrite dec_number.
Qed.

Lemma read_word w p r : In (w, p) spelled ->
  r = [] \/ (exists n, r = lit "." ++ dec n) ->
  read_tail 0 [] (lit "-" ++ w ++ r) = Some (Python 0 [] (Some (p, fst (opt_number r))) None None []).
Proof.
  intros I R.
  assert (W : word pre_words (w ++ r) = Some (p, r)).
  { destruct R as [->|(n & ->)];
      repeat (destruct I as [I|I]; [injection I as <- <-; reflexivity|]); destruct I. }
  assert (P : read_pre (lit "-" ++ w ++ r) = (Some (p, fst (opt_number r)), [])).
  { unfold read_pre, part. change (skip_sep (lit "-" ++ w ++ r)) with (w ++ r). rewrite W.
    destruct R as [->|(n & ->)]; [reflexivity|]. rewrite opt_number_dec. reflexivity. }
  unfold read_tail. rewrite P. reflexivity.
Qed.

Lemma tail_numbers e ns s : read_tail e ns s = option_map (fun p => Python e ns (prerelease p) (postrelease p) (devrelease p) (local p)) (read_tail 0 [] s).
Proof.
  unfold read_tail. destruct (read_pre s) as [p s1], (read_post s1) as [q s2], (read_dev s2) as [d s3].
  destruct s3 as [|c l]; [reflexivity|]. destruct (ceq c c_plus && local_ok true l); reflexivity.
Qed.

Lemma behind_minus s : behind (lit "-" ++ s).
Proof. split; [reflexivity|]. cbn. split; discriminate. Qed.

Lemma uploaded_word x y z w p n : In (to_lowercase w, p) spelled ->
  uploaded (numbered x y z (lit "-" ++ w ++ lit "." ++ dec n)) = Some (plain x y z (Some (p, n))) /\
  uploaded (numbered x y z (lit "-" ++ w)) = Some (plain x y z (Some (p, 0))).
Proof.
  intros I. unfold uploaded. rewrite !read_numbered.
  - rewrite !lower_app, lower_dec. change (to_lowercase (lit "-")) with (lit "-"). change (to_lowercase (lit ".")) with (lit ".").
    rewrite (tail_numbers 0 [x; y; z] (_ ++ _ ++ _)), (read_word _ _ _ I (or_intror (ex_intro _ n eq_refl))), opt_number_dec.
    rewrite <- (app_nil_r (to_lowercase w)), (tail_numbers 0 [x; y; z]), (read_word _ _ _ I (or_introl eq_refl)).
    split; reflexivity.
  - rewrite lower_app. apply behind_minus.
  - rewrite lower_app. apply behind_minus.
Qed.

Lemma uploaded_release x y z : uploaded (numbered x y z []) = Some (plain x y z None).
Proof. unfold uploaded. rewrite read_numbered by (split; exact I). reflexivity. Qed.

(** ** A number is a post-release *)
Lemma uploaded_number x y z n :
  uploaded (numbered x y z (lit "-" ++ dec n)) = Some (Python 0 [x; y; z] None (Some n) None []).
Proof.
  unfold uploaded. rewrite read_numbered by (rewrite lower_app; apply behind_minus).
  rewrite lower_app, lower_dec. change (to_lowercase (lit "-")) with (lit "-").
  destruct (dec_cons n) as (c & r & E & D).
  assert (W : word pre_words (dec n) = None).
  { rewrite E. apply digit_cases in D. repeat match type of D with _ \/ _ => destruct D as [D|D] end; subst; reflexivity. }
  assert (P : read_pre (lit "-" ++ dec n) = (None, lit "-" ++ dec n)).
  { unfold read_pre, part. change (skip_sep (lit "-" ++ dec n)) with (dec n). now rewrite W. }
  assert (Q : read_post (lit "-" ++ dec n) = (Some n, [])).
  { unfold read_post. change (lit "-" ++ dec n) with (c_minus :: dec n). cbn match. change (ceq c_minus c_minus) with true. cbn match.
    assert (G : digits_of (dec n) = (dec n, [])).
    { rewrite <- (app_nil_r (dec n)) at 1. apply digits_of_dec. exact I. }
    rewrite G. cbv beta iota. now rewrite dec_match, dec_number. }
  unfold read_tail. rewrite P, Q. reflexivity.
Qed.

(** ** Other words *)
Lemma other_words x y z c t : ~ In (to_lower_c c) starters -> read_python (numbered x y z (lit "-" ++ c :: t)) = None.
Proof.
  intros N. rewrite read_numbered by (rewrite lower_app; apply behind_minus).
  rewrite lower_app. change (to_lowercase (lit "-")) with (lit "-"). cbn [to_lowercase map]. fold (to_lowercase t).
  set (d := to_lower_c c) in *. set (s := d :: to_lowercase t).
  assert (K : forall k, In k starters -> ceq k d = false).
  { intros k I. unfold ceq. apply N.eqb_neq. intros ->. contradiction. }
  assert (L : forall w r, In w (lit "abcpr" ++ lit "d") -> starts_with (w :: r) s = false).
  { intros w r I. unfold s. cbn [starts_with]. rewrite K; [reflexivity|].
    cbn in I |- *. intuition. }
  assert (S : forall w r, In w (lit "abcpr" ++ lit "d") -> strip_prefix (w :: r) s = None).
  { intros w r I. specialize (L w r I). unfold s in *. cbn [strip_prefix]. cbn [starts_with] in L.
    rewrite K; [reflexivity|]. cbn in I |- *. intuition. }
  assert (W1 : word pre_words s = None).
  { unfold pre_words. cbn [word lit]. rewrite !S by (cbn; tauto). reflexivity. }
  assert (W2 : word post_words s = None).
  { unfold post_words. cbn [word lit]. rewrite !S by (cbn; tauto). reflexivity. }
  assert (W3 : word dev_words s = None).
  { unfold dev_words. cbn [word lit]. rewrite !S by (cbn; tauto). reflexivity. }
  assert (P : forall A (ws : list (str * A)), word ws s = None -> part ws (lit "-" ++ s) = None).
  { intros A ws W. unfold part. change (skip_sep (lit "-" ++ s)) with s. now rewrite W. }
  assert (D : is_digit d = false).
  { destruct (is_digit d) eqn:D; [|reflexivity]. apply digit_cases in D. exfalso. apply N. cbn. intuition. }
  unfold read_tail, read_pre. rewrite (P _ _ W1). unfold read_post. rewrite (P _ _ W2).
  change (lit "-" ++ s) with (c_minus :: s). cbn match. change (ceq c_minus c_minus) with true. cbn match.
  assert (G : fst (digits_of s) = []) by (unfold digits_of, s; cbn [fst take_while]; now rewrite D).
  destruct (digits_of s) as [g r]. cbn [fst] in G. subst g. cbn match.
  change (c_minus :: s) with (lit "-" ++ s). unfold read_dev. rewrite (P _ _ W3). reflexivity.
Qed.

(** ** Local versions *)
Definition eats (s r : str) : Prop := exists a, s = a ++ r /\ ~ In c_plus a.

Lemma eats_refl s : eats s s.
Proof. exists []. split; [reflexivity|intros []]. Qed.
Lemma eats_trans s r t : eats s r -> eats r t -> eats s t.
Proof.
  intros (a & -> & A) (b & -> & B). exists (a ++ b). split; [apply app_assoc|]. intros I. apply in_app_iff in I. tauto.
Qed.
Lemma eats_cons c s : c <> c_plus -> eats (c :: s) s.
Proof. intros H. exists [c]. split; [reflexivity|]. intros [I|[]]. congruence. Qed.

Lemma eats_sep s : eats s (skip_sep s).
Proof.
  destruct s as [|c r]; [apply eats_refl|]. cbn [skip_sep]. destruct (sep c) eqn:E; [|apply eats_refl].
  apply eats_cons. intros ->. discriminate E.
Qed.
Lemma eats_digits s : eats s (snd (digits_of s)).
Proof.
  unfold digits_of. cbn [snd]. induction s as [|c r IH]; [apply eats_refl|]. cbn [drop_while].
  destruct (is_digit c) eqn:E; [|apply eats_refl]. eapply eats_trans; [|exact IH]. apply eats_cons. intros ->. discriminate E.
Qed.
Lemma eats_word A (ws : list (str * A)) s a r : Forall (fun w => ~ In c_plus (fst w)) ws -> word ws s = Some (a, r) -> eats s r.
Proof.
  induction ws as [|(w, x) ws IH]; intros F H; [discriminate|]. inversion_clear F as [|? ? F1 F2]. cbn [word] in H.
  destruct (strip_prefix w s) as [r'|] eqn:E; [|now apply IH]. apply strip_prefix_iff in E.
  assert (R : r' = r) by congruence. subst r'. exists w. now split.
Qed.
Lemma eats_part A (ws : list (str * A)) s a n r : Forall (fun w => ~ In c_plus (fst w)) ws -> part ws s = Some (a, n, r) -> eats s r.
Proof.
  unfold part. intros F H. destruct (word ws (skip_sep s)) as [[b t]|] eqn:E; [|discriminate].
  apply eats_word in E; [|exact F]. unfold opt_number in H.
  pose proof (eats_digits (skip_sep t)) as D. destruct (digits_of (skip_sep t)) as [d u]. cbn [snd] in D.
  assert (U : u = r) by congruence. subst u.
  eapply eats_trans; [apply eats_sep|]. eapply eats_trans; [exact E|]. eapply eats_trans; [apply eats_sep|exact D].
Qed.

Ltac no_plus := repeat (apply Forall_cons || apply Forall_nil); cbn; intuition discriminate.
Lemma plus_pre : Forall (fun w => ~ In c_plus (fst w)) pre_words. Proof. no_plus. Qed.
Lemma plus_post : Forall (fun w => ~ In c_plus (fst w)) post_words. Proof. no_plus. Qed.
Lemma plus_dev : Forall (fun w => ~ In c_plus (fst w)) dev_words. Proof. no_plus. Qed.

Lemma eats_pre s : eats s (snd (read_pre s)).
Proof.
  unfold read_pre. destruct (part pre_words s) as [[[p n] r]|] eqn:E; [|apply eats_refl]. exact (eats_part _ _ _ _ _ _ plus_pre E).
Qed.
Lemma eats_dev s : eats s (snd (read_dev s)).
Proof.
  unfold read_dev. destruct (part dev_words s) as [[[p n] r]|] eqn:E; [|apply eats_refl]. exact (eats_part _ _ _ _ _ _ plus_dev E).
Qed.
Lemma eats_post s : eats s (snd (read_post s)).
Proof.
  unfold read_post. set (words := match part post_words s with Some (_, n, r) => (Some n, r) | None => (None, s) end).
  assert (W : eats s (snd words)).
  { unfold words. destruct (part post_words s) as [[[p n] r]|] eqn:E; [|apply eats_refl]. exact (eats_part _ _ _ _ _ _ plus_post E). }
  clearbody words. destruct s as [|c r]; [exact W|]. destruct (ceq c c_minus) eqn:E; [|exact W].
  pose proof (eats_digits r) as D. destruct (digits_of r) as [[|x d] u]; [exact W|]. cbn [snd] in *.
  eapply eats_trans; [|exact D]. apply eats_cons. intros ->. discriminate E.
Qed.
Lemma eats_numbers f : forall s, eats s (snd (more_numbers f s)).
Proof.
  induction f as [|f IH]; intros s; [apply eats_refl|]. destruct s as [|c r]; [apply eats_refl|]. cbn [more_numbers].
  destruct (ceq c c_dot) eqn:E; [|apply eats_refl].
  pose proof (eats_digits r) as D. destruct (digits_of r) as [[|x d] u]; [apply eats_refl|]. cbn [snd] in D.
  specialize (IH u). destruct (more_numbers f u) as [l t]. cbn [snd] in *.
  eapply eats_trans; [|eapply eats_trans; [exact D|exact IH]]. apply eats_cons. intros ->. discriminate E.
Qed.

Lemma tail_whole e ns s p : read_tail e ns s = Some p -> local p = [] -> eats s [].
Proof.
  unfold read_tail. pose proof (eats_pre s) as A. destruct (read_pre s) as [p1 s1]. cbn [snd] in A.
  pose proof (eats_post s1) as B. destruct (read_post s1) as [q s2]. cbn [snd] in B.
  pose proof (eats_dev s2) as C. destruct (read_dev s2) as [d s3]. cbn [snd] in C.
  intros H L. assert (T : eats s s3) by (eapply eats_trans; [exact A|]; eapply eats_trans; [exact B|exact C]).
  destruct s3 as [|c l]; [exact T|]. destruct (ceq c c_plus); [|discriminate H]. cbn [andb] in H.
  destruct l as [|x l]; [discriminate H|]. destruct (local_ok true (x :: l)); [|discriminate H].
  apply (f_equal (option_map local)) in H. cbn [option_map local] in H. congruence.
Qed.

Lemma plus_lower s : In c_plus s -> In c_plus (to_lowercase s).
Proof. intros I. apply (in_map to_lower_c) in I. exact I. Qed.

Lemma eats_none s : eats s [] -> ~ In c_plus s.
Proof. intros (a & -> & H). now rewrite app_nil_r. Qed.

Lemma no_metadata s : In c_plus s -> uploaded s = None.
Proof.
  intros I. unfold uploaded. destruct (read_python s) as [p|] eqn:R; [|reflexivity].
  destruct (is_empty (local p)) eqn:L; [|reflexivity]. exfalso.
  assert (L' : local p = []) by (destruct (local p); [reflexivity|discriminate]).
  apply plus_lower in I. revert I. apply eats_none. unfold read_python in R. set (t := to_lowercase s) in *.
  set (u := match t with c :: r => if ceq c 118%N then r else t | [] => t end) in *.
  assert (U : eats t u).
  { unfold u. destruct t as [|c r]; [apply eats_refl|]. destruct (ceq c 118%N) eqn:E; [|apply eats_refl].
    apply eats_cons. intros ->. discriminate E. }
  clearbody u t. eapply eats_trans; [exact U|]. pose proof (eats_digits u) as D.
  destruct (digits_of u) as [[|x d] r]; [discriminate R|]. cbn [snd] in D. eapply eats_trans; [exact D|].
  destruct r as [|c r]; [apply eats_refl|].
  destruct (ceq c c_bang) eqn:E.
  - pose proof (eats_digits r) as D2. destruct (digits_of r) as [d2 r2]. cbn [fst snd] in *.
    destruct d2 as [|y d2]; [discriminate R|]. pose proof (eats_numbers (length r2) r2) as N.
    destruct (more_numbers (length r2) r2) as [l w]. cbn [snd] in N. apply tail_whole in R; [|exact L'].
    eapply eats_trans; [apply eats_cons; intros ->; discriminate E|]. eapply eats_trans; [exact D2|]. eapply eats_trans; [exact N|exact R].
  - pose proof (eats_numbers (length (c :: r)) (c :: r)) as N.
    destruct (more_numbers (length (c :: r)) (c :: r)) as [l w]. cbn [snd] in N. apply tail_whole in R; [|exact L'].
    eapply eats_trans; [exact N|exact R].
Qed.

(** Which metadata is a local version. *)
Lemma letter_iff c : is_digit c || (N.leb 97 c && N.leb c 122) = true <-> letter c.
Proof. unfold is_digit, letter. rewrite orb_true_iff, !andb_true_iff, !N.leb_le. tauto. Qed.
Lemma sep_iff c : sep c = true <-> In c (lit "-_.").
Proof.
  unfold sep. rewrite !orb_true_iff. unfold ceq. rewrite !N.eqb_eq. cbn. split; [intros [[->| ->]| ->]; auto|].
  intros [<-|[<-|[<-|[]]]]; auto.
Qed.
Lemma letter_sep c : letter c -> sep c = false.
Proof.
  intros H. destruct (sep c) eqn:E; [|reflexivity]. apply sep_iff in E. exfalso.
  destruct E as [<-|[<-|[<-|[]]]]; destruct H as [[A B]|[A B]]; (apply A; reflexivity) || (apply B; reflexivity).
Qed.

Lemma local_sound : forall s, (local_ok true s = true -> local_text s) /\
  (local_ok false s = true -> s = [] \/ (forall w, w <> [] -> Forall letter w -> local_text (w ++ s))).
Proof.
  induction s as [|c r [IH1 IH2]]; [split; [discriminate|now left]|]. cbn [local_ok]. destruct (sep c) eqn:S.
  - split; [discriminate|]. cbn [negb andb]. intros H. right. intros w N F. apply local_more; auto. now apply sep_iff.
  - assert (K : (is_digit c || (N.leb 97 c && N.leb c 122)) && local_ok false r = true -> forall w, Forall letter w -> local_text (w ++ c :: r)).
    { intros H w F. apply andb_true_iff in H as [L H]. apply letter_iff in L.
      assert (G : Forall letter (w ++ [c])) by (apply Forall_app; auto).
      assert (N : w ++ [c] <> []) by (destruct w; discriminate).
      destruct (IH2 H) as [->|T]; [now apply local_word|]. specialize (T (w ++ [c]) N G). now rewrite <- app_assoc in T. }
    split; [intros H; exact (K H [] (Forall_nil _))|]. intros H. right. intros w _ F. now apply K.
Qed.

Lemma local_letters w s b : w <> [] -> Forall letter w -> local_ok b (w ++ s) = local_ok false s.
Proof.
  intros N F. revert b N. induction F as [|c w L F IH]; intros b N; [now destruct N|]. cbn [app local_ok].
  rewrite (letter_sep c L). assert (E : is_digit c || (N.leb 97 c && N.leb c 122) = true) by now apply letter_iff.
  rewrite E. cbn [andb]. destruct w as [|d w]; [reflexivity|]. apply IH. discriminate.
Qed.

Lemma local_iff s : local_ok true s = true <-> local_text s.
Proof.
  split; [apply local_sound|]. induction 1 as [w N F|w c s N F I H IH].
  - rewrite <- (app_nil_r w). now rewrite local_letters.
  - rewrite local_letters by assumption. cbn [local_ok]. apply sep_iff in I. rewrite I. exact IH.
Qed.

Theorem metadata_read x y z l p :
  read_python (numbered x y z (lit "+" ++ l)) = Some p <->
  local_text (to_lowercase l) /\ p = Python 0 [x; y; z] None None None (to_lowercase l).
Proof.
  assert (B : behind (to_lowercase (lit "+" ++ l))) by (split; [reflexivity|]; cbn; split; discriminate).
  rewrite read_numbered by exact B. rewrite lower_app. change (to_lowercase (lit "+")) with (lit "+").
  assert (T : forall m, read_tail 0 [x; y; z] (lit "+" ++ m) = if local_ok true m then Some (Python 0 [x; y; z] None None None m) else None) by reflexivity.
  rewrite T, <- local_iff. destruct (local_ok true (to_lowercase l)).
  - split; [intros E; split; [reflexivity|congruence]|now intros [_ ->]].
  - split; [discriminate|]. intros [H _]. discriminate.
Qed.

(** ** The order *)
Lemma lex_cons A (lt : A -> A -> Prop) a b l m : lex eq lt (a :: l) (b :: m) <-> lt a b \/ (a = b /\ lex eq lt l m).
Proof.
  split; [inversion_clear 1; auto|]. intros [H|[-> H]]; [now apply lex_here|]. now apply lex_next.
Qed.
Lemma lex_same (a : nat) l m : lex eq lt (a :: l) (a :: m) <-> lex eq lt l m.
Proof. rewrite lex_cons. split; [intros [H|[_ H]]; [lia|exact H]|now right]. Qed.
Lemma lex_none A (lt : A -> A -> Prop) l : ~ lex eq lt l [].
Proof. inversion 1. Qed.

Definition place (o : option (phase * nat)) : nat * nat := match o with Some (p, n) => (rank p, n) | None => (4, 0) end.

Lemma earlier_plain x y z o x' y' z' o' : earlier (plain x y z o) (plain x' y' z' o') <->
  x < x' \/ (x = x' /\ (y < y' \/ (y = y' /\ (z < z' \/ (z = z' /\
   (fst (place o) < fst (place o') \/ (fst (place o) = fst (place o') /\ snd (place o) < snd (place o')))))))).
Proof.
  unfold earlier. assert (K : forall x y z o, key (plain x y z o) = [0; x; y; z; fst (place o); snd (place o); 0; 1; 0]).
  { intros ? ? ? [[p n]|]; reflexivity. }
  rewrite !K, lex_same, (lex_cons _ _ x), (lex_cons _ _ y), (lex_cons _ _ z), (lex_cons _ _ (fst _)), (lex_cons _ _ (snd _)), !lex_same.
  pose proof (lex_none _ lt []) as N. tauto.
Qed.

Lemma common_digits p : ~ digits (common p).
Proof.
  intros D. destruct p; [specialize (D 97%N)|specialize (D 98%N)|specialize (D 114%N)]; cbn in D;
    assert (48 <= 97 <= 57 \/ 48 <= 98 <= 57 \/ 48 <= 114 <= 57)%N by tauto; lia.
Qed.
Lemma dec_is_digits n : digits (dec n).
Proof. intros c I. apply Safety.dec_digit in I. unfold is_digit in I. apply andb_true_iff in I as [A B]. apply N.leb_le in A, B. lia. Qed.

Lemma common_before p q : id_before (common p) (common q) <-> rank p < rank q.
Proof.
  pose proof (common_digits p) as P. pose proof (common_digits q) as Q. unfold id_before.
  split.
  - intros [(A & _)|[(A & _)|(_ & _ & L)]]; try contradiction.
    assert (B : forall a b l m, lex eq N.lt (a :: l) (b :: m) -> (b < a)%N -> False).
    { intros a b l m H G. apply lex_cons in H as [H|[H _]]; lia. }
    assert (E : forall l, ~ lex eq N.lt l l).
    { induction l as [|c l IH]; [apply lex_none|]. intros H. apply lex_cons in H as [H|[_ H]]; [lia|now apply IH]. }
    destruct p, q; cbn [rank]; try lia; exfalso; (now apply E in L) || (apply B in L; [exact L|reflexivity]).
  - intros L. right. right. split; [exact P|]. split; [exact Q|]. destruct p, q; cbn [rank] in L; try lia; apply lex_here; reflexivity.
Qed.

Lemma common_same p q : id_same (common p) (common q) <-> rank p = rank q.
Proof.
  pose proof (common_digits p) as P. split.
  - intros [E|(A & _)]; [|contradiction]. destruct p, q; try reflexivity; discriminate E.
  - intros E. left. destruct p, q; try reflexivity; discriminate E.
Qed.

Lemma number_before m n : id_before (dec m) (dec n) <-> m < n.
Proof.
  pose proof (dec_is_digits m) as P. pose proof (dec_is_digits n) as Q. unfold id_before. rewrite !dec_number. tauto.
Qed.

Lemma pre_order o o' : pre_before (ids_of o) (ids_of o') <->
  fst (place o) < fst (place o') \/ (fst (place o) = fst (place o') /\ snd (place o) < snd (place o')).
Proof.
  unfold pre_before. destruct o as [[p n]|], o' as [[q m]|]; cbn [ids_of place fst snd].
  - assert (L : lex id_same id_before [common p; dec n] [common q; dec m] <-> rank p < rank q \/ (rank p = rank q /\ n < m)).
    { rewrite <- common_before, <- common_same, <- number_before. split.
      - inversion_clear 1 as [| |? ? ? ? S T]; [now left|]. right. split; [exact S|]. inversion_clear T as [| |? ? ? ? S' T']; [assumption|inversion T'].
      - intros [A|[A B]]; [now apply lex_here|]. apply lex_next; [exact A|]. now apply lex_here. }
    rewrite L. split; [intros [_ [H|H]]; [discriminate|exact H]|]. intros H. split; [discriminate|now right].
  - destruct p; cbn [rank]; split; intros; try lia; (split; [discriminate|now left]).
  - split; [intros [H _]; now destruct H|]. destruct q; cbn [rank]; lia.
  - split; [intros [H _]; now destruct H|lia].
Qed.

Theorem same_order x y z o x' y' z' o' :
  precedes (with_pre x y z (ids_of o)) (with_pre x' y' z' (ids_of o')) <-> earlier (plain x y z o) (plain x' y' z' o').
Proof. rewrite earlier_plain, <- pre_order. reflexivity. Qed.

(** The texts are those of the versions of SemVer, and Python reads them. *)
Lemma word_text w : In w (map fst spelled) -> pre_text w.
Proof.
  intros I. split; [split|].
  - repeat (destruct I as [<-|I]; [discriminate|]). destruct I.
  - intros c J. right. right. left. repeat (destruct I as [<-|I]; [cbn in J; intuition (subst; lia)|]). destruct I.
  - intros D. exfalso. repeat (destruct I as [<-|I]; [specialize (D _ (or_introl eq_refl)); discriminate D|]). destruct I.
Qed.
Lemma number_text n : pre_text (dec n).
Proof.
  split; [split|].
  - destruct (dec_cons n) as (c & r & E & _). rewrite E. discriminate.
  - intros c I. left. now apply Safety.dec_digit in I.
  - intros _. now exists n.
Qed.

Lemma semver_of x y z ids : Forall pre_text ids ->
  semver (numbered x y z (match ids with [] => [] | _ => lit "-" ++ dotted ids end)) (with_pre x y z ids).
Proof.
  intros F. split; [exact F|]. exists []. split; [|now left]. unfold numbered. cbn [with_pre major minor patch pre].
  rewrite app_nil_r. destruct ids; reflexivity.
Qed.

Lemma common_spelled p : In (to_lowercase (common p), p) spelled.
Proof. destruct p; cbn; tauto. Qed.
Lemma common_in p : In (common p) (map fst spelled).
Proof. destruct p; cbn; tauto. Qed.

Theorem known x y z o :
  semver (numbered x y z (tail_of o)) (with_pre x y z (ids_of o)) /\
  uploaded (numbered x y z (tail_of o)) = Some (plain x y z o).
Proof.
  destruct o as [[p n]|]; split.
  - assert (F : Forall pre_text (ids_of (Some (p, n)))).
    { apply Forall_cons; [apply word_text, common_in|]. apply Forall_cons; [apply number_text|apply Forall_nil]. }
    pose proof (semver_of x y z _ F) as H. exact H.
  - apply uploaded_word, common_spelled.
  - exact (semver_of x y z [] (Forall_nil _)).
  - apply uploaded_release.
Qed.

(** A number: SemVer puts it before, Python behind. *)
Theorem number_reversed x y z n :
  semver (numbered x y z (lit "-" ++ dec n)) (with_pre x y z [dec n]) /\
  precedes (with_pre x y z [dec n]) (with_pre x y z []) /\
  exists p q, uploaded (numbered x y z []) = Some p /\ uploaded (numbered x y z (lit "-" ++ dec n)) = Some q /\ earlier p q.
Proof.
  split; [|split].
  - exact (semver_of x y z [dec n] (Forall_cons _ (number_text n) (Forall_nil _))).
  - right. split; [reflexivity|]. right. split; [reflexivity|]. right. split; [reflexivity|]. split; [discriminate|now left].
  - exists (plain x y z None), (Python 0 [x; y; z] None (Some n) None []). split; [apply uploaded_release|].
    split; [apply uploaded_number|]. unfold earlier. cbn [key plain epoch numbers prerelease postrelease devrelease app].
    repeat (apply lex_next; [reflexivity|]). apply lex_here. lia.
Qed.

(** [pre] before [rc] for SemVer, the same word for Python. *)
Theorem candidates x y z m n :
  semver (numbered x y z (lit "-pre." ++ dec m)) (with_pre x y z [lit "pre"; dec m]) /\
  semver (numbered x y z (lit "-rc." ++ dec n)) (with_pre x y z [lit "rc"; dec n]) /\
  precedes (with_pre x y z [lit "pre"; dec m]) (with_pre x y z [lit "rc"; dec n]) /\
  exists p q, uploaded (numbered x y z (lit "-pre." ++ dec m)) = Some p /\ uploaded (numbered x y z (lit "-rc." ++ dec n)) = Some q /\
    (p = q <-> m = n) /\ (earlier q p <-> n < m).
Proof.
  assert (S : forall w k, In w (map fst spelled) -> semver (numbered x y z (lit "-" ++ w ++ lit "." ++ dec k)) (with_pre x y z [w; dec k])).
  { intros w k I. exact (semver_of x y z [w; dec k] (Forall_cons _ (word_text w I) (Forall_cons _ (number_text k) (Forall_nil _)))). }
  split; [apply (S (lit "pre")); cbn; tauto|]. split; [apply (S (lit "rc")); cbn; tauto|]. split.
  - right. split; [reflexivity|]. right. split; [reflexivity|]. right. split; [reflexivity|]. split; [discriminate|]. right.
    apply lex_here. right. right.
    split; [|split; [exact (common_digits Candidate)|apply lex_here; reflexivity]].
    intros D. specialize (D 112%N (or_introl eq_refl)). lia.
  - exists (plain x y z (Some (Candidate, m))), (plain x y z (Some (Candidate, n))).
    split; [apply (uploaded_word x y z (lit "pre")); cbn; tauto|]. split; [apply (uploaded_word x y z (lit "rc")); cbn; tauto|].
    split; [split; [intros E; apply (f_equal prerelease) in E; cbn [plain prerelease] in E; congruence|now intros ->]|]. rewrite earlier_plain. cbn [place fst snd]. lia.
Qed.

(** Words for post-releases, and [dev]. *)
Lemma word_id w : w <> [] -> forallb (fun c => N.leb 97 c && N.leb c 122) w = true -> pre_text w.
Proof.
  intros N F. rewrite forallb_forall in F.
  assert (R : forall c, In c w -> (97 <= c <= 122)%N).
  { intros c I. apply F in I. apply andb_true_iff in I as [A B]. apply N.leb_le in A, B. lia. }
  split; [split; [exact N|]|].
  - intros c I. right. right. left. now apply R.
  - intros D. exfalso. destruct w as [|c w]; [now apply N|]. specialize (D c (or_introl eq_refl)). specialize (R c (or_introl eq_refl)).
    unfold is_digit in D. apply andb_true_iff in D as [_ D]. apply N.leb_le in D. lia.
Qed.

Lemma post_word x y z w n : In w spelled_post ->
  uploaded (numbered x y z (lit "-" ++ w ++ lit "." ++ dec n)) = Some (Python 0 [x; y; z] None (Some n) None []).
Proof.
  intros I. unfold uploaded. rewrite read_numbered by (rewrite lower_app; apply behind_minus).
  rewrite !lower_app, lower_dec. change (to_lowercase (lit "-")) with (lit "-"). change (to_lowercase (lit ".")) with (lit ".").
  assert (L : to_lowercase w = w) by (repeat (destruct I as [<-|I]; [reflexivity|]); destruct I).
  rewrite L. pose proof (opt_number_dec n) as O.
  assert (T : exists t, lit "." ++ dec n = c_dot :: t) by now exists (dec n).
  destruct T as (t & T). rewrite T in O |- *. clear T L. set (r := c_dot :: t) in *.
  assert (P : read_pre (lit "-" ++ w ++ r) = (None, lit "-" ++ w ++ r)).
  { repeat (destruct I as [<-|I]; [reflexivity|]). destruct I. }
  assert (Q : read_post (lit "-" ++ w ++ r) = (Some n, [])).
  { assert (W : part post_words (lit "-" ++ w ++ r) = Some (tt, n, [])).
    { unfold part. change (skip_sep (lit "-" ++ w ++ r)) with (w ++ r).
      assert (E : word post_words (w ++ r) = Some (tt, r)) by (repeat (destruct I as [<-|I]; [reflexivity|]); destruct I).
      rewrite E. now rewrite O. }
    unfold read_post. rewrite W. repeat (destruct I as [<-|I]; [reflexivity|]). destruct I. }
  unfold read_tail. rewrite P, Q. reflexivity.
Qed.

Theorem post_reversed x y z w n : In w spelled_post ->
  semver (numbered x y z (lit "-" ++ w ++ lit "." ++ dec n)) (with_pre x y z [w; dec n]) /\
  precedes (with_pre x y z [w; dec n]) (with_pre x y z []) /\
  exists p q, uploaded (numbered x y z []) = Some p /\ uploaded (numbered x y z (lit "-" ++ w ++ lit "." ++ dec n)) = Some q /\
    postrelease q = Some n /\ earlier p q.
Proof.
  intros I. split; [|split].
  - assert (W : pre_text w) by (apply word_id; repeat (destruct I as [<-|I]; [try discriminate; reflexivity|]); destruct I).
    exact (semver_of x y z [w; dec n] (Forall_cons _ W (Forall_cons _ (number_text n) (Forall_nil _)))).
  - right. split; [reflexivity|]. right. split; [reflexivity|]. right. split; [reflexivity|]. split; [discriminate|now left].
  - exists (plain x y z None), (Python 0 [x; y; z] None (Some n) None []). split; [apply uploaded_release|].
    split; [now apply post_word|]. split; [reflexivity|]. unfold earlier. cbn [key plain epoch numbers prerelease postrelease devrelease app].
    repeat (apply lex_next; [reflexivity|]). apply lex_here. lia.
Qed.

Lemma dev_word x y z n :
  uploaded (numbered x y z (lit "-dev." ++ dec n)) = Some (Python 0 [x; y; z] None None (Some n) []).
Proof.
  unfold uploaded. rewrite read_numbered by (rewrite lower_app; apply (behind_minus (lit "dev." ++ to_lowercase (dec n)))).
  rewrite lower_app, lower_dec. change (to_lowercase (lit "-dev.")) with (lit "-dev.").
  assert (P : forall r, read_pre (lit "-dev." ++ r) = (None, lit "-dev." ++ r)) by reflexivity.
  assert (Q : forall r, read_post (lit "-dev." ++ r) = (None, lit "-dev." ++ r)) by reflexivity.
  assert (D : forall r, read_dev (lit "-dev." ++ r) = (let '(k, t) := opt_number (lit "." ++ r) in (Some k, t))).
  { intros r. unfold read_dev, part. change (word dev_words (skip_sep (lit "-dev." ++ r))) with (Some (tt, lit "." ++ r)).
    cbv beta iota. destruct (opt_number (lit "." ++ r)). reflexivity. }
  unfold read_tail. rewrite P. cbv beta iota. rewrite Q. cbv beta iota. rewrite D, opt_number_dec. reflexivity.
Qed.

(** [dev] is behind [alpha] and [beta] for SemVer, before all of them for Python. *)
Theorem dev_reversed x y z p m n : p <> Candidate ->
  semver (numbered x y z (lit "-dev." ++ dec n)) (with_pre x y z [lit "dev"; dec n]) /\
  precedes (with_pre x y z (ids_of (Some (p, m)))) (with_pre x y z [lit "dev"; dec n]) /\
  exists d, uploaded (numbered x y z (lit "-dev." ++ dec n)) = Some d /\ devrelease d = Some n /\
    earlier d (plain x y z (Some (p, m))).
Proof.
  intros C. split; [|split].
  - assert (W : pre_text (lit "dev")) by (apply word_id; [discriminate|reflexivity]).
    exact (semver_of x y z [lit "dev"; dec n] (Forall_cons _ W (Forall_cons _ (number_text n) (Forall_nil _)))).
  - right. split; [reflexivity|]. right. split; [reflexivity|]. right. split; [reflexivity|]. split; [discriminate|]. right.
    cbn [with_pre ids_of pre]. apply lex_here. right. right. split; [apply common_digits|]. split.
    + intros D. specialize (D 100%N (or_introl eq_refl)). lia.
    + destruct p; [apply lex_here; reflexivity|apply lex_here; reflexivity|congruence].
  - exists (Python 0 [x; y; z] None None (Some n) []). split; [apply dev_word|]. split; [reflexivity|].
    unfold earlier. cbn [key plain epoch numbers prerelease postrelease devrelease app].
    repeat (apply lex_next; [reflexivity|]). apply lex_here. destruct p; cbn [rank]; lia.
Qed.

(** The tag is the version with [v] before. *)
Theorem tag_same x y z t : read_python (tag_of (numbered x y z t)) = read_python (numbered x y z t).
Proof.
  unfold read_python, tag_of, numbered. destruct (dec_cons x) as (c & r & E & D). rewrite E.
  cbn [app to_lowercase map]. rewrite (lower_digit c D). change (to_lower_c 118%N) with 118%N. change (ceq 118%N 118%N) with true.
  assert (F : ceq c 118%N = false) by (unfold ceq; apply N.eqb_neq; intros ->; discriminate D). cbv iota. rewrite F. reflexivity.
Qed.

(** ** The workflow *)
Lemma run_fails tree ext b s ss : In s ss -> succeeds tree ext b s = false -> snd (run_steps tree ext b ss) = false.
Proof.
  intros I F. induction ss as [|x ss IH]; [destruct I|]. cbn [run_steps].
  destruct I as [->|I]; [now rewrite F|]. specialize (IH I). destruct (succeeds tree ext b x); [|reflexivity].
  destruct (run_steps tree ext b ss) as [l ok]. exact IH.
Qed.

Theorem not_started tree ext ok tag v :
  (forall b, ext b WheelsLinux = true -> read_python v <> None) -> read_python v = None ->
  base_packages_start tree ext ok tag = false.
Proof.
  intros H N. set (b := nth 0 matrix {| name := []; os := Ubuntu; npm_publish := true; pypi_publish := true |}).
  assert (F : snd (leg tree ext tag b) = false).
  { apply run_fails with (s := WheelsLinux).
    - apply filter_In. split; [cbn; tauto|reflexivity].
    - cbn [succeeds]. destruct (ext b WheelsLinux) eqn:E; [now apply H in E|reflexivity]. }
  unfold base_packages_start. cbn [matrix forallb]. fold b. unfold b, matrix in F. cbn [nth] in F. rewrite F. now rewrite andb_false_r.
Qed.
