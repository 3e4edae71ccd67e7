(** * IterBytesFacts: the byte iterator follows the char iterator. *)
From Verif Require Import Strings StringsFacts Token Iter Lexer Utf8 IterBytes.
Open Scope list_scope.

(** ** Boundaries *)

Lemma valid_app a b : valid (a ++ b) <-> valid a /\ valid b.
Proof. apply Forall_app. Qed.

Lemma valid_cons c s : valid (c :: s) <-> scalar c /\ valid s.
Proof. unfold valid. split; [inversion 1; auto|intros [A B]; constructor; auto]. Qed.

Lemma encode_nil s : encode s = [] -> s = [].
Proof.
  destruct s as [|c s]; [reflexivity|]. rewrite encode_cons. intros E.
  apply app_eq_nil in E as [E _]. destruct (enc_nonempty _ E).
Qed.

Lemma encode_one c : encode [c] = enc_char c.
Proof. apply app_nil_r. Qed.

Lemma encode_head c s : scalar c ->
  exists b r, encode (c :: s) = b :: r /\ cont b = false.
Proof.
  intros H. destruct (enc_shape c H) as (b & r & E & L & _). rewrite encode_cons, E.
  exists b, (r ++ encode s). auto.
Qed.

Lemma forallb_nth (f : byte -> bool) l i d :
  forallb f l = true -> i < length l -> f (nth i l d) = true.
Proof. intros F L. rewrite forallb_forall in F. apply F. apply nth_In. exact L. Qed.

Lemma boundary_0 bs : boundary bs 0 = true.
Proof. reflexivity. Qed.

Lemma boundary_end bs : boundary bs (length bs) = true.
Proof. unfold boundary. rewrite Nat.ltb_irrefl, Nat.eqb_refl. apply orb_true_r. Qed.

Lemma boundary_out bs i : length bs < i -> boundary bs i = false.
Proof.
  intros L. unfold boundary. destruct (Nat.eqb_spec i 0); [lia|].
  destruct (Nat.ltb_spec i (length bs)); [lia|]. destruct (Nat.eqb_spec i (length bs)); [lia|reflexivity].
Qed.

(** No boundary inside a char. *)
Lemma boundary_in_char c s i : scalar c -> 0 < i -> i < length (enc_char c) ->
  boundary (encode (c :: s)) i = false.
Proof.
  intros H P L. destruct (enc_shape c H) as (b & r & E & _ & F & _).
  rewrite encode_cons, E in *. cbn [length] in L. unfold boundary.
  destruct (Nat.eqb_spec i 0); [lia|]. rewrite app_length. cbn [length].
  destruct (Nat.ltb_spec i (S (length r) + length (encode s))); [|lia].
  rewrite app_nth1 by (cbn; lia). destruct i as [|i]; [lia|]. cbn [nth].
  rewrite (forallb_nth cont) by (auto; lia). reflexivity.
Qed.

(** Boundaries of the rest of the text. *)
Lemma boundary_shift s t i : valid t -> boundary (encode (s ++ t)) (length (encode s) + i) = boundary (encode t) i.
Proof.
  intros V. rewrite encode_app. unfold boundary at 1. rewrite app_length.
  destruct (Nat.ltb_spec (length (encode s) + i) (length (encode s) + length (encode t))) as [L|L].
  - rewrite app_nth2 by lia. replace (length (encode s) + i - length (encode s)) with i by lia.
    unfold boundary. destruct (Nat.ltb_spec i (length (encode t))); [|lia].
    destruct (Nat.eqb_spec i 0) as [->|N].
    + destruct t as [|c t]; [cbn in L; lia|]. apply valid_cons in V as [Hc V].
      destruct (encode_head c t Hc) as (b & r & E & C). rewrite E. cbn [nth]. rewrite C.
      apply orb_true_r.
    + destruct (Nat.eqb_spec (length (encode s) + i) 0); [lia|reflexivity].
  - unfold boundary. destruct (Nat.ltb_spec i (length (encode t))); [lia|].
    destruct (Nat.eqb_spec i 0) as [->|N].
    + destruct (Nat.eqb_spec (length (encode s) + 0) (length (encode s) + length (encode t))); [|lia].
      apply orb_true_r.
    + destruct (Nat.eqb_spec (length (encode s) + i) 0); [lia|]. cbn [orb].
      destruct (Nat.eqb_spec i (length (encode t))),
        (Nat.eqb_spec (length (encode s) + i) (length (encode s) + length (encode t))); lia || reflexivity.
Qed.

Lemma boundary_at s t : valid t -> boundary (encode (s ++ t)) (length (encode s)) = true.
Proof.
  intros V. rewrite <- (Nat.add_0_r (length (encode s))), boundary_shift by exact V. reflexivity.
Qed.

Lemma split_bytes_0 s : split_bytes 0 s = Some ([], s).
Proof. destruct s; reflexivity. Qed.

Lemma split_bytes_cons n c s : 0 < n ->
  split_bytes n (c :: s) =
  if length (enc_char c) <=? n
  then match split_bytes (n - length (enc_char c)) s with
       | Some (a, b) => Some (c :: a, b)
       | None => None
       end
  else None.
Proof. destruct n; [lia|reflexivity]. Qed.

Lemma split_bytes_spec n s a b :
  split_bytes n s = Some (a, b) <-> s = a ++ b /\ length (encode a) = n.
Proof.
  revert n a b. induction s as [|c s IH]; intros n a b.
  - destruct n as [|n].
    + cbn. split.
      * intros K. injection K as <- <-. auto.
      * intros [E L]. symmetry in E. apply app_eq_nil in E as [-> ->]. reflexivity.
    + cbn. split; [discriminate|]. intros [E L]. symmetry in E. apply app_eq_nil in E as [-> ->].
      cbn in L. lia.
  - destruct n as [|n].
    + rewrite split_bytes_0. split.
      * intros K. injection K as <- <-. auto.
      * intros [E L]. destruct a as [|d a]; [cbn in E; subst; reflexivity|].
        rewrite encode_cons, app_length in L. pose proof (enc_length d). lia.
    + rewrite split_bytes_cons by lia. destruct (Nat.leb_spec (length (enc_char c)) (S n)) as [Le|Lt].
      * destruct (split_bytes (S n - length (enc_char c)) s) as [[a' b']|] eqn:E.
        -- apply IH in E as [-> E]. split.
           ++ intros K. injection K as <- <-. rewrite encode_cons, app_length.
              split; [reflexivity|lia].
           ++ intros [E2 L]. destruct a as [|d a]; [cbn in L; lia|].
              injection E2 as <- E2. rewrite encode_cons, app_length in L.
              assert (E3 : split_bytes (S n - length (enc_char c)) (a' ++ b') = Some (a, b)).
              { apply IH. split; [exact E2|lia]. }
              assert (E4 : split_bytes (S n - length (enc_char c)) (a' ++ b') = Some (a', b')).
              { apply IH. split; [reflexivity|lia]. }
              rewrite E3 in E4. injection E4 as -> ->. reflexivity.
        -- split; [discriminate|]. intros [E2 L]. destruct a as [|d a]; [cbn in L; lia|].
           injection E2 as <- E2. rewrite encode_cons, app_length in L.
           assert (E3 : split_bytes (S n - length (enc_char c)) s = Some (a, b)).
           { apply IH. split; [exact E2|lia]. }
           congruence.
      * split; [discriminate|]. intros [E2 L]. destruct a as [|d a]; [cbn in L; lia|].
        injection E2 as <- E2. rewrite encode_cons, app_length in L. lia.
Qed.

(** A byte index is a boundary exactly where a char ends. *)
Lemma boundary_split n s : valid s -> boundary (encode s) n = is_some (split_bytes n s).
Proof.
  revert n. induction s as [|c s IH]; intros n V.
  - destruct n; reflexivity.
  - destruct n as [|n]; [reflexivity|]. apply valid_cons in V as [Hc V].
    rewrite split_bytes_cons by lia. destruct (Nat.leb_spec (length (enc_char c)) (S n)) as [Le|Lt].
    + change (c :: s) with ([c] ++ s).
      replace (S n) with (length (encode [c]) + (S n - length (enc_char c))).
      2: { rewrite encode_one. lia. }
      rewrite boundary_shift, IH by exact V. rewrite encode_one.
      replace (length (enc_char c) + (S n - length (enc_char c)) - length (enc_char c))
        with (S n - length (enc_char c)) by lia.
      destruct (split_bytes (S n - length (enc_char c)) s) as [[a b]|]; reflexivity.
    + apply boundary_in_char; [exact Hc|lia|exact Lt].
Qed.

(** ** Slices *)

Lemma slice_app (a b c : bytes) : slice (length a) (length a + length b) (a ++ b ++ c) = b.
Proof.
  unfold slice. replace (length a + length b - length a) with (length b) by lia.
  rewrite skipn_app, skipn_all, Nat.sub_diag. cbn [app skipn].
  rewrite firstn_app, firstn_all, Nat.sub_diag, firstn_O. apply app_nil_r.
Qed.

Lemma get_middle a b c n m : valid (a ++ b ++ c) -> n = length (encode a) ->
  m = length (encode a) + length (encode b) ->
  get (encode (a ++ b ++ c)) n m = Some (encode b).
Proof.
  intros V -> ->. apply valid_app in V as [Va V]. unfold get.
  rewrite boundary_at by exact V. replace (boundary _ (_ + _)) with true.
  2: { symmetry. rewrite <- app_length, <- encode_app, app_assoc. apply boundary_at.
       apply valid_app in V as [_ V]. exact V. }
  destruct (Nat.leb_spec (length (encode a)) (length (encode a) + length (encode b))); [|lia].
  cbn [andb]. rewrite !encode_app, slice_app. reflexivity.
Qed.

Lemma get_none_r s a n : boundary (encode s) n = false -> get (encode s) a n = None.
Proof. intros E. unfold get. rewrite E, andb_false_r. reflexivity. Qed.
Lemma get_none_l s a n : boundary (encode s) a = false -> get (encode s) a n = None.
Proof. intros E. unfold get. rewrite E, andb_false_r. reflexivity. Qed.

(** ** Searching *)

Lemma prefix_encode p s : valid p -> valid s ->
  starts_with (encode p) (encode s) = starts_with p s.
Proof.
  intros Vp Vs. destruct (starts_with p s) eqn:E.
  - apply starts_with_iff in E as [y ->]. rewrite encode_app. apply starts_with_app.
  - destruct (starts_with (encode p) (encode s)) eqn:E'; [|reflexivity].
    exfalso. apply starts_with_iff in E' as [y E']. rewrite <- not_true_iff_false in E. apply E.
    clear E. revert s Vs E'. induction p as [|c p IH]; intros s Vs E'; [reflexivity|].
    apply valid_cons in Vp as [Hc Vp]. rewrite encode_cons, <- app_assoc in E'.
    destruct s as [|d s].
    { cbn in E'. symmetry in E'. apply app_eq_nil in E' as [E' _]. destruct (enc_nonempty _ E'). }
    apply valid_cons in Vs as [Hd Vs]. rewrite encode_cons in E'.
    assert (D : dec_char (enc_char d ++ encode s) = dec_char (enc_char c ++ encode p ++ y))
      by (rewrite E'; reflexivity).
    rewrite !dec_enc in D by assumption. injection D as -> D.
    cbn [starts_with]. rewrite ceq_refl. cbn [andb]. apply IH; assumption.
Qed.

Lemma suffix_encode p s : valid p -> valid s ->
  ends_with (encode p) (encode s) = ends_with p s.
Proof.
  intros Vp Vs. destruct (ends_with p s) eqn:E.
  - apply ends_with_iff in E as [y ->]. rewrite encode_app. apply ends_with_app.
  - destruct (ends_with (encode p) (encode s)) eqn:E'; [|reflexivity].
    exfalso. apply ends_with_iff in E' as [x E']. rewrite <- not_true_iff_false in E. apply E.
    clear E. apply ends_with_iff. destruct p as [|c p].
    { exists s. symmetry. apply app_nil_r. }
    assert (B : boundary (encode s) (length x) = true).
    { rewrite E'. unfold boundary. rewrite app_length.
      pose proof Vp as Vp'. apply valid_cons in Vp' as [Hc _].
      destruct (encode_head c p Hc) as (b & r & Eb & Cb). rewrite Eb. cbn [length].
      match goal with |- context [if ?u <? ?v then _ else _] =>
        destruct (Nat.ltb_spec u v) as [_|Bad]; [|lia] end.
      rewrite app_nth2, Nat.sub_diag by lia. cbn [nth]. rewrite Cb. apply orb_true_r. }
    rewrite boundary_split in B by exact Vs.
    destruct (split_bytes (length x) s) as [[a b]|] eqn:Sp; [|discriminate].
    apply split_bytes_spec in Sp as [-> La]. exists a. f_equal.
    apply valid_app in Vs as [Va Vb]. apply encode_inj; [exact Vb|exact Vp|].
    rewrite encode_app in E'. apply app_inj_tail_iff || idtac.
    assert (K : skipn (length x) (encode a ++ encode b) = skipn (length x) (x ++ encode (c :: p)))
      by (rewrite E'; reflexivity).
    rewrite <- La in K at 1. rewrite !skipn_app, !skipn_all, !Nat.sub_diag in K. exact K.
Qed.

Lemma find_at_skip p l bs : forallb cont l = true ->
  (exists b r, p = b :: r /\ cont b = false) ->
  find_at p (l ++ bs) = option_map (fun n => length l + n) (find_at p bs).
Proof.
  intros F (b & r & -> & C). induction l as [|x l IH].
  - cbn [app length]. destruct (find_at (b :: r) bs); reflexivity.
  - cbn [forallb] in F. apply andb_true_iff in F as [Cx F]. cbn [app].
    cbn [find_at starts_with]. destruct (ceq b x) eqn:E.
    { apply ceq_eq in E. congruence. }
    cbn [andb]. rewrite (IH F). destruct (find_at (b :: r) bs); reflexivity.
Qed.

Lemma find_encode p s : valid p -> valid s ->
  find_at (encode p) (encode s) = option_map (fun a => length (encode a)) (before_first p s).
Proof.
  intros Vp. induction s as [|c s IH]; intros Vs.
  - cbn [encode flat_map find_at before_first].
    pose proof (prefix_encode p [] Vp Vs) as P. cbn in P. rewrite P.
    destruct (starts_with p []); reflexivity.
  - pose proof (prefix_encode p (c :: s) Vp Vs) as P. cbn [before_first].
    destruct (starts_with p (c :: s)) eqn:E.
    + destruct (encode (c :: s)); cbn [find_at]; rewrite P; reflexivity.
    + apply valid_cons in Vs as [Hc Vs].
      assert (Hp : exists b r, encode p = b :: r /\ cont b = false).
      { destruct p as [|d p]; [discriminate|]. apply valid_cons in Vp as [Hd Vp].
        apply encode_head. exact Hd. }
      destruct (enc_shape c Hc) as (b & r & Eb & Cb & Fr & _).
      rewrite encode_cons, Eb in *. cbn [app] in *. cbn [find_at]. rewrite P.
      rewrite find_at_skip by (assumption || exact Hp). rewrite IH by exact Vs.
      destruct (before_first p s) as [a|]; [|reflexivity].
      cbn [option_map]. rewrite encode_cons, Eb. cbn [app length]. rewrite app_length. reflexivity.
Qed.

Lemma before_first_nl s :
  before_first [c_nl] s = option_map fst (split_once c_nl s).
Proof.
  induction s as [|c s IH]; [reflexivity|]. cbn [before_first starts_with split_once].
  rewrite andb_true_r, (ceq_sym c_nl c). destruct (ceq c c_nl); [reflexivity|].
  rewrite IH. destruct (split_once c_nl s) as [[a b]|]; reflexivity.
Qed.

(** ** The operations *)

Section AtPlace.
Variable p q : str.
Hypothesis V : valid (p ++ q).
Let it := {| passed := p; ahead := q |}.

Lemma Vq : valid q.
Proof. apply valid_app in V as [_ V']. exact V'. Qed.

Lemma char_len_at :
  char_len (at_place it) = match q with [] => None | c :: _ => Some (length (enc_char c)) end.
Proof.
  unfold char_len, at_place, it. cbn [passed ahead the_str index]. pose proof Vq as Hq.
  destruct q as [|c s].
  - rewrite app_nil_r. cbn [find]. rewrite !boundary_out by lia. reflexivity.
  - pose proof (enc_length c) as L. apply valid_cons in Hq as [Hc Hs].
    assert (B : boundary (encode (c :: s)) (length (enc_char c)) = true).
    { pose proof (boundary_at [c] s Hs) as B. cbn [encode flat_map] in B. rewrite app_nil_r in B.
      exact B. }
    assert (NB : forall i, 0 < i -> i < length (enc_char c) -> boundary (encode (c :: s)) i = false)
      by (intros; apply boundary_in_char; assumption).
    cbn [find]. rewrite !boundary_shift by (apply valid_cons; split; assumption).
    destruct (Nat.eq_dec (length (enc_char c)) 1) as [E1|N1];
      [rewrite E1 in *; rewrite B; reflexivity|]. rewrite (NB 1) by lia.
    destruct (Nat.eq_dec (length (enc_char c)) 2) as [E1|N2];
      [rewrite E1 in *; rewrite B; reflexivity|]. rewrite (NB 2) by lia.
    destruct (Nat.eq_dec (length (enc_char c)) 3) as [E1|N3];
      [rewrite E1 in *; rewrite B; reflexivity|]. rewrite (NB 3) by lia.
    destruct (Nat.eq_dec (length (enc_char c)) 4) as [E1|N4];
      [rewrite E1 in *; rewrite B; reflexivity|]. lia.
Qed.

Lemma peek_at :
  b_peek (at_place it) = match q with [] => None | c :: _ => Some (enc_char c) end.
Proof.
  unfold b_peek. rewrite char_len_at. unfold at_place, it. cbn [passed ahead the_str index].
  pose proof V as V'. destruct q as [|c s]; [reflexivity|]. change (c :: s) with ([c] ++ s) in *.
  rewrite get_middle by (auto; cbn; rewrite app_nil_r; reflexivity).
  cbn. rewrite app_nil_r. reflexivity.
Qed.
End AtPlace.

Lemma next_at p c q : valid (p ++ c :: q) ->
  b_next (at_place {| passed := p; ahead := c :: q |}) =
  (Some (enc_char c), at_place {| passed := p ++ [c]; ahead := q |}).
Proof.
  intros V. pose proof (peek_at _ _ V) as P. unfold b_next. unfold b_peek in P.
  rewrite char_len_at in * by exact V. rewrite P. f_equal.
  unfold at_index, at_place. cbn [passed ahead the_str index].
  rewrite <- app_assoc, (encode_app p [c]), app_length, encode_one. reflexivity.
Qed.

Lemma next_at_end p : valid (p ++ []) ->
  b_next (at_place {| passed := p; ahead := [] |}) = (None, at_place {| passed := p; ahead := [] |}).
Proof. intros V. unfold b_next. rewrite char_len_at by exact V. reflexivity. Qed.

Lemma while_at f q p n : valid (p ++ q) -> length q < n ->
  b_while n f (at_place {| passed := p; ahead := q |}) =
  Ret (at_place {| passed := p ++ take_while (on_char f) q; ahead := drop_while (on_char f) q |}).
Proof.
  revert p n. induction q as [|c q IH]; intros p n V L; (destruct n as [|n]; [cbn in L; lia|]).
  - cbn [b_while take_while drop_while]. rewrite peek_at by exact V. rewrite app_nil_r. reflexivity.
  - cbn [b_while take_while drop_while]. rewrite peek_at by exact V. unfold on_char at 1 3.
    destruct (f (enc_char c)).
    + rewrite next_at by exact V. cbn [snd]. rewrite IH.
      * rewrite <- app_assoc. reflexivity.
      * rewrite <- app_assoc. exact V.
      * cbn in L. lia.
    + rewrite app_nil_r. reflexivity.
Qed.

Lemma rounds_at p q : length q < rounds (at_place {| passed := p; ahead := q |}).
Proof.
  unfold rounds, at_place. cbn [passed ahead the_str]. rewrite encode_app, app_length.
  pose proof (length_encode q). lia.
Qed.

Lemma tail_at t q p start acc n : valid (p ++ q) -> valid t -> p = start ++ acc -> length q < n ->
  b_tail_loop n (encode t) (length (encode start)) (at_place {| passed := p; ahead := q |}) =
  Ret (at_place {| passed := start ++ fst (consume_until_tail_go t acc q);
                   ahead := snd (consume_until_tail_go t acc q) |}).
Proof.
  revert p acc n. induction q as [|c q IH]; intros p acc n V Vt -> L;
    (destruct n as [|n]; [cbn in L; lia|]); cbn [b_tail_loop consume_until_tail_go].
  - rewrite peek_at by exact V. reflexivity.
  - rewrite peek_at by exact V. cbv zeta.
    assert (G : get (the_str (at_place {| passed := start ++ acc; ahead := c :: q |}))
                  (length (encode start)) (index (at_place {| passed := start ++ acc; ahead := c :: q |}))
                = Some (encode acc)).
    { unfold at_place. cbn [passed ahead the_str index]. rewrite <- app_assoc in *.
      apply get_middle; [exact V|reflexivity|]. rewrite encode_app, app_length. reflexivity. }
    rewrite G. rewrite suffix_encode.
    2: exact Vt.
    2: { apply valid_app in V as [V _]. apply valid_app in V as [_ V]. exact V. }
    destruct (ends_with t acc); [reflexivity|].
    rewrite next_at by exact V. cbn [snd]. apply IH.
    + rewrite <- app_assoc. exact V.
    + exact Vt.
    + rewrite <- app_assoc. reflexivity.
    + cbn in L. lia.
Qed.

Lemma tail_go_split t acc q :
  fst (consume_until_tail_go t acc q) ++ snd (consume_until_tail_go t acc q) = acc ++ q.
Proof.
  revert acc. induction q as [|c q IH]; intros acc; cbn [consume_until_tail_go]; [reflexivity|].
  destruct (ends_with t acc); [reflexivity|]. rewrite IH, <- app_assoc. reflexivity.
Qed.

Lemma get_from p q q1 q2 : valid (p ++ q) -> q = q1 ++ q2 ->
  get (the_str (at_place {| passed := p ++ q1; ahead := q2 |}))
    (index (at_place {| passed := p; ahead := q |}))
    (index (at_place {| passed := p ++ q1; ahead := q2 |})) = Some (encode q1).
Proof.
  intros V ->. unfold at_place. cbn [passed ahead the_str index]. rewrite <- app_assoc.
  apply get_middle; [exact V|reflexivity|]. rewrite encode_app, app_length. reflexivity.
Qed.

Lemma place_str p q q1 q2 : q = q1 ++ q2 ->
  the_str (at_place {| passed := p ++ q1; ahead := q2 |}) =
  the_str (at_place {| passed := p; ahead := q |}).
Proof. intros ->. unfold at_place. cbn. rewrite <- app_assoc. reflexivity. Qed.

Lemma split_line_nl q a b : split_once c_nl q = Some (a, b) ->
  q = (a ++ [c_nl]) ++ b /\ fst (split_line q) = a ++ [c_nl] /\ snd (split_line q) = b.
Proof.
  intros E. unfold split_line. rewrite E. apply split_once_sound in E as [-> _].
  rewrite <- app_assoc. auto.
Qed.

Lemma enc_nl : enc_char c_nl = [c_nl].
Proof. reflexivity. Qed.
Lemma encode_nl : encode [c_nl] = [c_nl].
Proof. reflexivity. Qed.
Lemma valid_nl : valid [c_nl].
Proof. repeat constructor. Qed.

Lemma find_next_at p q t : valid (p ++ q) -> valid t ->
  b_find_next (encode t) (at_place {| passed := p; ahead := q |}) =
  Ret (option_map (fun a => length (encode a)) (before_first t q)).
Proof.
  intros V Vt. pose proof V as V'. apply valid_app in V' as [Vp Vq'].
  unfold b_find_next, from, at_place. cbn [passed ahead the_str index].
  rewrite boundary_at by exact Vq'. cbn [bind]. rewrite encode_app, skipn_app, skipn_all, Nat.sub_diag.
  cbn [app skipn]. rewrite find_encode by assumption. reflexivity.
Qed.

Lemma line_at p q : valid (p ++ q) ->
  b_consume_line_ahead (at_place {| passed := p; ahead := q |}) =
  Ret match peek_line_ahead q with
      | Some l => (Some (encode l),
                   at_place {| passed := p ++ fst (consume_line_ahead q);
                               ahead := snd (consume_line_ahead q) |})
      | None => (None, at_place {| passed := p; ahead := q |})
      end.
Proof.
  intros V. unfold b_consume_line_ahead. rewrite <- encode_nl.
  rewrite find_next_at by (exact V || exact valid_nl). cbn [bind].
  rewrite before_first_nl. unfold peek_line_ahead, consume_line_ahead.
  destruct (split_once c_nl q) as [[a b]|] eqn:E; cbn [option_map fst].
  - apply split_line_nl in E as (Eq & E1 & E2). rewrite E1, E2.
    destruct q as [|c q'] eqn:Q; [destruct a; discriminate|]. rewrite <- Q in *.
    pose proof (get_from p q (a ++ [c_nl]) b V Eq) as G.
    rewrite (place_str p q _ b Eq) in G.
    assert (I : index (at_place {| passed := p ++ a ++ [c_nl]; ahead := b |}) =
                index (at_place {| passed := p; ahead := q |}) + length (encode a) + 1).
    { unfold at_place. cbn [passed index]. rewrite !encode_app, !app_length. cbn. lia. }
    rewrite I in G. rewrite G. f_equal. f_equal. unfold at_index.
    rewrite <- I, <- (place_str p q _ b Eq). reflexivity.
  - rewrite peek_at by exact V. destruct q as [|c q'] eqn:Q; [reflexivity|]. rewrite <- Q in *.
    cbn [is_some]. assert (Sp : split_line q = (q, [])) by (unfold split_line; rewrite E; reflexivity).
    rewrite Sp. cbn [fst snd].
    pose proof (get_from p q q [] V (eq_sym (app_nil_r q))) as G.
    rewrite (place_str p q q [] (eq_sym (app_nil_r q))) in G.
    assert (I : index (at_place {| passed := p ++ q; ahead := [] |}) =
                length (the_str (at_place {| passed := p; ahead := q |}))) by reflexivity.
    rewrite I in G.
    assert (At : at_index (at_place {| passed := p; ahead := q |})
                   (length (the_str (at_place {| passed := p; ahead := q |}))) =
                 at_place {| passed := p ++ q; ahead := [] |}).
    { unfold at_index, at_place. cbn [passed ahead the_str index]. rewrite app_nil_r. reflexivity. }
    destruct (length (the_str (at_place {| passed := p; ahead := q |}))) as [|n] eqn:Ln.
    { apply length_zero_iff_nil in Ln. unfold at_place in Ln. cbn [passed ahead the_str] in Ln.
      apply encode_nil, app_eq_nil in Ln as [_ Ln]. congruence. }
    rewrite Nat.add_1_r, G, At. reflexivity.
Qed.

Lemma peek_line_fst it :
  b_peek_line_ahead it = bind (b_consume_line_ahead it) (fun r => Ret (fst r)).
Proof.
  unfold b_peek_line_ahead, b_consume_line_ahead.
  destruct (b_find_next [c_nl] it) as [[k|]| |]; try reflexivity. cbn [bind].
  destruct (is_some (b_peek it)); [|reflexivity].
  destruct (length (the_str it)); reflexivity.
Qed.

Lemma peek_line_at p q : valid (p ++ q) ->
  b_peek_line_ahead (at_place {| passed := p; ahead := q |}) =
  Ret (option_map encode (peek_line_ahead q)).
Proof.
  intros V. rewrite peek_line_fst, line_at by exact V. cbn [bind].
  destruct (peek_line_ahead q); reflexivity.
Qed.

Lemma starts_in_split_get p q n : valid (p ++ q) ->
  get (encode (p ++ q)) (length (encode p)) (length (encode p) + n) =
  option_map encode (option_map fst (split_bytes n q)).
Proof.
  intros V. pose proof V as V'. apply valid_app in V' as [Vp Vq'].
  destruct (split_bytes n q) as [[a b]|] eqn:E.
  - apply split_bytes_spec in E as [-> <-]. cbn [option_map fst].
    apply get_middle; [exact V|reflexivity|reflexivity].
  - apply get_none_r. rewrite boundary_shift by exact Vq'. rewrite boundary_split by exact Vq'.
    rewrite E. reflexivity.
Qed.

Lemma get_back p q n : valid (p ++ q) ->
  get (encode (p ++ q)) n (length (encode p)) =
  option_map encode (option_map snd (split_bytes n p)).
Proof.
  intros V. pose proof V as V'. apply valid_app in V' as [Vp Vq'].
  destruct (split_bytes n p) as [[a b]|] eqn:E.
  - apply split_bytes_spec in E as [-> <-]. cbn [option_map snd]. rewrite <- app_assoc in *.
    apply get_middle; [exact V|reflexivity|]. rewrite encode_app, app_length. reflexivity.
  - unfold get. destruct (Nat.leb_spec n (length (encode p))) as [L|L]; [|reflexivity].
    cbn [andb]. replace (boundary (encode (p ++ q)) n) with false; [reflexivity|].
    symmetry. destruct (boundary (encode (p ++ q)) n) eqn:B; [|reflexivity]. exfalso.
    rewrite boundary_split in B by exact V.
    destruct (split_bytes n (p ++ q)) as [[a b]|] eqn:E'; [|discriminate].
    apply split_bytes_spec in E' as [E' La].
    assert (exists d, p = a ++ d) as [d ->].
    { clear - E' La L. revert p E' L. revert n La. induction a as [|x a IH]; intros n La p E' L.
      - exists p. reflexivity.
      - destruct p as [|y p]; [cbn in La, L; pose proof (enc_length x); rewrite app_length in La; lia|].
        injection E' as -> E'. rewrite encode_cons, app_length in L.
        cbn [encode flat_map] in La. rewrite app_length in La.
        destruct (IH (n - length (enc_char x))) with (p := p) as [d ->]; [fold encode; unfold encode; lia|exact E'|lia|].
        exists d. reflexivity. }
    assert (K : split_bytes n (a ++ d) = Some (a, d)) by (apply split_bytes_spec; auto).
    congruence.
Qed.

Definition known (s : str) (it : citer) : Prop := passed it ++ ahead it = s.

(** Every operation: same answer, and the char iterator stays in its text. *)
Lemma step_refines s o it : valid s -> known s it -> op_ok o ->
  (s = [] -> o <> OPeekUntilEnd) ->
  b_step o (at_place it) = Ret (encoded (fst (c_step o it)), at_place (snd (c_step o it))) /\
  known s (snd (c_step o it)).
Proof.
  destruct it as [p q]. unfold known. cbn [passed ahead]. intros Vs <- Ok Ne.
  pose proof Vs as V'. apply valid_app in V' as [Vp Vq'].
  destruct o; cbn [b_step c_step passed ahead]; unfold moved, peeked.
  - destruct q as [|c q]; cbn [peek hd_error bind].
    + rewrite next_at_end by exact Vs. auto.
    + rewrite next_at by exact Vs. cbn. rewrite app_nil_r, <- app_assoc. auto.
  - rewrite peek_at by exact Vs. destruct q as [|c q]; cbn; [auto|].
    rewrite app_nil_r. auto.
  - unfold b_next_if_eq. rewrite peek_at by exact Vs. cbn [op_ok] in Ok.
    destruct q as [|c q].
    { cbn [text_is bind fst snd]. destruct e as [|d [|d' e]]; cbn; auto. }
    cbn [text_is]. destruct (str_eqb (enc_char c) (encode e)) eqn:E.
    + apply str_eqb_eq in E. assert (Ee : [c] = e).
      { apply encode_inj; [|exact Ok|cbn; rewrite app_nil_r; exact E].
        apply valid_cons in Vq' as [Hc _]. constructor; [exact Hc|constructor]. }
      subst e. rewrite next_at by exact Vs. cbn [bind fst snd next_if_eq]. rewrite ceq_refl.
      cbn. rewrite app_nil_r, <- app_assoc. auto.
    + assert (Ne' : [c] <> e).
      { intros <-. cbn in E. rewrite app_nil_r, str_eqb_refl in E. discriminate. }
      destruct e as [|d [|d' e]]; cbn [bind fst snd next_if_eq encoded option_map passed ahead]; auto.
      destruct (ceq c d) eqn:Ec; [apply ceq_eq in Ec; congruence|]. cbn. auto.
  - unfold b_consume_while. rewrite while_at by (exact Vs || apply rounds_at). cbn [bind].
    rewrite (get_from p q _ _ Vs (eq_sym (take_drop _ q))). cbn [fst snd consume_while].
    cbn. rewrite <- app_assoc, take_drop. auto.
  - unfold b_consume_until_tail_is. cbn [op_ok] in Ok.
    pose proof (tail_at t q p p [] (rounds (at_place {| passed := p; ahead := q |})) Vs Ok
                  (eq_sym (app_nil_r p)) (rounds_at p q)) as T.
    change (index (at_place {| passed := p; ahead := q |})) with (length (encode p)) at 1.
    rewrite T. cbn [bind]. unfold consume_until_tail_is.
    pose proof (tail_go_split t [] q) as Sp. cbn [app] in Sp.
    rewrite (get_from p q _ _ Vs (eq_sym Sp)). cbn. rewrite <- app_assoc, Sp. auto.
  - unfold b_consume_until_end. rewrite while_at by (exact Vs || apply rounds_at). cbn [bind].
    rewrite (get_from p q _ _ Vs (eq_sym (take_drop _ q))).
    replace (take_while (on_char (fun _ => true)) q) with q
      by (clear; induction q as [|c q IH]; [reflexivity|cbn; f_equal; exact IH]).
    replace (drop_while (on_char (fun _ => true)) q) with (@nil char)
      by (clear; induction q as [|c q IH]; [reflexivity|cbn; exact IH]).
    cbn. rewrite app_nil_r. auto.
  - unfold b_peek_until_end.
    destruct (length (the_str (at_place {| passed := p; ahead := q |}))) as [|n] eqn:L.
    { exfalso. apply length_zero_iff_nil in L. cbn in L. apply encode_nil in L.
      apply (Ne L). reflexivity. }
    cbn [bind fst snd passed ahead encoded option_map]. split; [|reflexivity]. f_equal. f_equal. f_equal.
    replace (n + 1) with (length (encode p) + length (encode q)).
    2: { cbn in L. rewrite encode_app, app_length in L. lia. }
    unfold at_place. cbn [passed ahead the_str index].
    pose proof (get_middle p q [] (length (encode p)) (length (encode p) + length (encode q))) as G.
    rewrite app_nil_r in G. apply G; [exact Vs|reflexivity|reflexivity].
  - cbn. auto.
  - cbn [bind fst snd encoded passed ahead]. unfold b_substring_from, at_place.
    cbn [passed ahead the_str index]. rewrite get_back by exact Vs. auto.
  - cbn [bind fst snd encoded passed ahead]. unfold b_substring_ahead, at_place.
    cbn [passed ahead the_str index]. rewrite starts_in_split_get by exact Vs. auto.
  - cbn [op_ok] in Ok. rewrite find_next_at by assumption. cbn. auto.
  - rewrite peek_line_at by exact Vs. cbn. auto.
  - rewrite line_at by exact Vs. cbn [bind]. destruct (peek_line_ahead q) as [l|]; cbn; [|auto].
    split; [reflexivity|]. rewrite <- app_assoc. f_equal. unfold consume_line_ahead, split_line.
    destruct (split_once c_nl q) as [[a b]|] eqn:E; cbn.
    + apply split_once_sound in E as [-> _]. rewrite <- app_assoc. reflexivity.
    + apply app_nil_r.
  - rewrite while_at by (exact Vs || apply rounds_at). cbn. rewrite <- app_assoc, take_drop. auto.
Qed.

(** Every sequence of operations from any place. *)
Lemma run_refines s os it : valid s -> known s it -> ops_ok s os ->
  b_run os (at_place it) = Ret (map encoded (fst (c_run os it)), at_place (snd (c_run os it))) /\
  known s (snd (c_run os it)).
Proof.
  intros Vs. revert it. induction os as [|o os IH]; intros it K [Ok Ne].
  - cbn. auto.
  - inversion Ok as [|o' os' Oo Oos]; subst. cbn [b_run c_run].
    destruct (step_refines s o it Vs K Oo) as [E K'].
    { intros Es Eo. apply (Ne Es). left. exact Eo. }
    rewrite E. cbn [bind fst snd].
    destruct (IH (snd (c_step o it)) K') as [E' K''].
    { split; [exact Oos|]. intros Es I. apply (Ne Es). right. exact I. }
    rewrite E'. cbn. auto.
Qed.

Lemma iterator_refines s os : valid s -> ops_ok s os ->
  b_run os (b_new (encode s)) =
    Ret (map encoded (fst (c_run os (c_new s))), at_place (snd (c_run os (c_new s)))) /\
  passed (snd (c_run os (c_new s))) ++ ahead (snd (c_run os (c_new s))) = s.
Proof.
  intros V O. apply (run_refines s os (c_new s) V); [reflexivity|exact O].
Qed.

(** ** Every answer is a text *)

Definition text_answer (s : str) (a : answer str) : Prop :=
  match a with AText (Some t) => infix t s | _ => True end.

Lemma infix_valid t s : infix t s -> valid s -> valid t.
Proof. intros (x & y & ->) V. apply valid_app in V as [_ V]. apply valid_app in V as [V _]. exact V. Qed.

Lemma step_text s o it : known s it -> text_answer s (fst (c_step o it)).
Proof.
  destruct it as [p q]. unfold known. cbn [passed ahead]. intros <-.
  assert (Sub : forall a b, q = a ++ b -> infix a (p ++ q)).
  { intros a b ->. exists p, b. reflexivity. }
  assert (line : forall x, peek_line_ahead q = Some x -> infix x (p ++ q)).
  { intros x L. unfold peek_line_ahead in L.
    destruct q as [|c q0] eqn:Q; [discriminate|]. rewrite <- Q in *. injection L as <-.
    unfold split_line. destruct (split_once c_nl q) as [[a b]|] eqn:E; cbn [fst].
    - apply split_once_sound in E as [E _]. apply (Sub (a ++ [c_nl]) b). rewrite <- app_assoc. exact E.
    - apply (Sub q []). symmetry. apply app_nil_r. }
  destruct o; cbn [c_step ahead passed].
  - destruct q as [|c q]; cbn; [exact I|]. apply (Sub [c] q). reflexivity.
  - destruct q as [|c q]; cbn; [exact I|]. apply (Sub [c] q). reflexivity.
  - destruct e as [|c [|d e]]; try exact I. destruct q as [|x q]; cbn [next_if_eq]; [exact I|].
    destruct (ceq x c) eqn:E; [|exact I]. apply ceq_eq in E. subst x. apply (Sub [c] q). reflexivity.
  - cbn. apply (Sub _ (drop_while (on_char f) q)). symmetry. apply take_drop.
  - cbn. pose proof (tail_go_split t [] q) as T. apply (Sub _ (snd (consume_until_tail_go t [] q))).
    symmetry. exact T.
  - cbn. apply (Sub q []). symmetry. apply app_nil_r.
  - cbn. apply (Sub q []). symmetry. apply app_nil_r.
  - exact I.
  - cbn. destruct (split_bytes start p) as [[a b]|] eqn:E; [|exact I]. cbn.
    apply split_bytes_spec in E as [-> _]. exists a, q. rewrite <- app_assoc. reflexivity.
  - cbn. destruct (split_bytes n q) as [[a b]|] eqn:E; [|exact I]. cbn.
    apply split_bytes_spec in E as [E _]. apply (Sub a b). exact E.
  - exact I.
  - cbn [fst text_answer]. destruct (peek_line_ahead q) as [x|] eqn:L; [|exact I]. apply line. reflexivity.
  - destruct (peek_line_ahead q) as [x|] eqn:L; [|exact I]. apply line. reflexivity.
  - exact I.
Qed.

Lemma run_text s os it : valid s -> known s it -> ops_ok s os ->
  Forall (text_answer s) (fst (c_run os it)).
Proof.
  intros Vs. revert it. induction os as [|o os IH]; intros it K [Ok Ne]; cbn [c_run fst]; [constructor|].
  inversion Ok as [|o' os' Oo Oos]; subst. constructor; [apply step_text; exact K|].
  destruct (step_refines s o it Vs K Oo) as [_ K'].
  { intros Es Eo. apply (Ne Es). left. exact Eo. }
  apply IH; [exact K'|]. split; [exact Oos|]. intros Es J. apply (Ne Es). right. exact J.
Qed.

Lemma boundary_kept s os answers it : valid s -> ops_ok s os ->
  b_run os (b_new (encode s)) = Ret (answers, it) ->
  exists a b, s = a ++ b /\ the_str it = encode s /\ index it = length (encode a) /\
    Forall (fun x => match x with AText (Some t) => exists u, decode t = Some u | _ => True end)
      answers.
Proof.
  intros V O R. destruct (iterator_refines s os V O) as [E K]. rewrite E in R.
  injection R as <- <-. exists (passed (snd (c_run os (c_new s)))), (ahead (snd (c_run os (c_new s)))).
  split; [symmetry; exact K|]. unfold at_place. cbn [the_str index]. rewrite K.
  split; [reflexivity|]. split; [reflexivity|].
  pose proof (run_text s os (c_new s) V eq_refl O) as T.
  apply Forall_map. apply (Forall_impl _ (P := text_answer s)); [|exact T].
  intros [[t|]|o|]; cbn; auto. intros J. exists t. apply decode_encode.
  apply (infix_valid t s); assumption.
Qed.

Lemma peek_until_end_empty : exists s os, valid s /\ Forall op_ok os /\
  b_run os (b_new (encode s)) = Panic.
Proof. exists [], [OPeekUntilEnd]. repeat split; repeat constructor. Qed.
