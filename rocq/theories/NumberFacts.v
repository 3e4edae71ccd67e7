(** * NumberFacts: which texts are numbers and versions. *)
From Coq Require Import Ascii String.
From Coq Require Import DecimalNat DecimalFacts.
From Verif Require Import Strings StringsFacts Npm Release SpecRelease Safety.
Open Scope list_scope.
Fixpoint uint_of (s : str) : Decimal.uint :=
  match s with
  | [] => Decimal.Nil
  | c :: s' =>
      let u := uint_of s' in
      match N.to_nat (c - 48) with
      | 0 => Decimal.D0 u | 1 => Decimal.D1 u | 2 => Decimal.D2 u | 3 => Decimal.D3 u | 4 => Decimal.D4 u
      | 5 => Decimal.D5 u | 6 => Decimal.D6 u | 7 => Decimal.D7 u | 8 => Decimal.D8 u | _ => Decimal.D9 u
      end
  end.
Lemma digit_cases c : is_digit c = true ->
  c = 48%N \/ c = 49%N \/ c = 50%N \/ c = 51%N \/ c = 52%N \/ c = 53%N \/ c = 54%N \/ c = 55%N \/ c = 56%N \/ c = 57%N.
Proof. unfold is_digit. intros H. apply andb_true_iff in H as [A B]. apply N.leb_le in A, B. lia. Qed.
Ltac digits D := apply digit_cases in D; repeat match type of D with _ \/ _ => destruct D as [D|D] end; subst.
Lemma uint_shown s : forallb is_digit s = true -> lit (DecimalString.NilEmpty.string_of_uint (uint_of s)) = s.
Proof.
  induction s as [|c s IH]; [reflexivity|]. cbn [forallb]. intros H. apply andb_true_iff in H as [D H].
  specialize (IH H). digits D; match goal with |- _ = ?d :: _ => exact (f_equal (cons d) IH) end.
Qed.
Lemma uint_number s : forallb is_digit s = true -> forall acc, number_go acc s = Nat.of_uint_acc (uint_of s) acc.
Proof.
  induction s as [|c s IH]; [reflexivity|]. cbn [forallb]. intros H acc. apply andb_true_iff in H as [D H].
  specialize (IH H). cbn [number_go]. rewrite IH.
  digits D; (match goal with |- Nat.of_uint_acc _ ?a = Nat.of_uint_acc ?u _ =>
    let u' := eval cbv [uint_of N.to_nat N.sub Pos.sub_mask Pos.sub_mask_carry Pos.double_mask Pos.succ_double_mask Pos.double_pred_mask Pos.pred_double Pos.to_nat Pos.iter_op Nat.add] in u in change u with u';
    let a' := eval cbv [N.to_nat N.sub Pos.sub_mask Pos.sub_mask_carry Pos.double_mask Pos.succ_double_mask Pos.double_pred_mask Pos.pred_double Pos.to_nat Pos.iter_op] in a in change a with a' end);
    fold uint_of; cbn [Nat.of_uint_acc]; f_equal; rewrite Nat.tail_mul_spec; lia.
Qed.
Lemma of_uint_number s : forallb is_digit s = true -> number s = Nat.of_uint (uint_of s).
Proof. intros H. apply (uint_number s H 0). Qed.

Lemma uint_back u : uint_of (lit (DecimalString.NilEmpty.string_of_uint u)) = u.
Proof. induction u; cbn [DecimalString.NilEmpty.string_of_uint lit uint_of]; rewrite ?IHu; reflexivity. Qed.

Lemma number_of_dec s n : number_of s = Some n <-> s = dec n.
Proof.
  split.
  - unfold number_of. destruct s as [|c s]; [discriminate|].
    destruct (numeric (c :: s)) eqn:D; [|discriminate]. cbn [andb].
    destruct (negb _ || _) eqn:Z; [|discriminate]. intros [= <-].
    rewrite (of_uint_number _ D). unfold dec. rewrite Unsigned.to_of.
    assert (E : Decimal.unorm (uint_of (c :: s)) = uint_of (c :: s)).
    { destruct s as [|d s].
      - cbn [numeric forallb] in D. unfold numeric in D. cbn [forallb] in D. apply andb_true_iff in D as [D _]. digits D; reflexivity.
      - cbn [is_empty] in Z. rewrite orb_false_r in Z. unfold numeric in D. cbn [forallb] in D. apply andb_true_iff in D as [D _].
        digits D; try discriminate Z; reflexivity. }
    rewrite E. rewrite <- (uint_shown (c :: s) D) at 1. f_equal. unfold numeric in D. cbn [forallb] in D.
    apply andb_true_iff in D as [D _]. digits D; reflexivity.
  - intros ->. unfold dec.
    assert (D : forallb is_digit (dec n) = true) by (apply forallb_forall; intros c; apply dec_digit).
    unfold dec in D. pose proof (Unsigned.of_to n) as O. pose proof (f_equal Nat.to_uint O) as T. rewrite Unsigned.to_of in T.
    set (u := Nat.to_uint n) in *.
    assert (Z : u = Decimal.D0 Decimal.Nil \/ (u <> Decimal.Nil /\ forall v, u <> Decimal.D0 v)).
    { unfold Decimal.unorm in T. destruct (Decimal.nzhead u) eqn:H; try (right; split; [congruence|]; intros v ->; congruence).
      - left. congruence.
      - exfalso. exact (nzhead_nonzero _ _ H). }
    destruct Z as [->|[Z1 Z2]]; [rewrite <- O; reflexivity|].
    assert (N : DecimalString.NilZero.string_of_uint u = DecimalString.NilEmpty.string_of_uint u) by (destruct u; [congruence|reflexivity..]).
    rewrite N in *. pose proof (of_uint_number _ D) as E. rewrite uint_back, O in E.
    unfold number_of, numeric. rewrite D, E. clear - Z1 Z2.
    destruct u; [congruence|destruct (Z2 u); reflexivity|reflexivity..].
Qed.

(** ** Identifiers *)
Lemma id_chars_iff x : id_chars x = true <-> id_text x.
Proof.
  unfold id_chars, id_text. rewrite andb_true_iff, negb_true_iff, forallb_forall. split; intros [A B]; split.
  - intros ->. discriminate A.
  - intros c C. specialize (B c C). rewrite !orb_true_iff in B. unfold is_upper in B.
    rewrite !andb_true_iff, !N.leb_le in B. unfold ceq in B. rewrite N.eqb_eq in B. intuition.
  - destruct x; [congruence|reflexivity].
  - intros c C. specialize (B c C). rewrite !orb_true_iff. unfold is_upper.
    rewrite !andb_true_iff, !N.leb_le. unfold ceq. rewrite N.eqb_eq. intuition.
Qed.
Lemma pre_id_iff x : pre_id x = true <-> pre_text x.
Proof.
  unfold pre_id, pre_text. rewrite andb_true_iff, id_chars_iff. split; intros [A B]; (split; [exact A|]).
  - intros D. assert (E : numeric x = true) by (apply forallb_forall, D). rewrite E in B. cbn [negb orb] in B.
    destruct (number_of x) as [n|] eqn:N; [|discriminate]. exists n. now apply number_of_dec.
  - destruct (numeric x) eqn:E; [|reflexivity]. cbn [negb orb]. unfold numeric in E. rewrite forallb_forall in E.
    destruct (B E) as [n ->]. now rewrite (proj2 (number_of_dec _ n) eq_refl).
Qed.
Lemma all_iff {A} (f : A -> bool) (P : A -> Prop) l : (forall x, f x = true <-> P x) -> forallb f l = true <-> Forall P l.
Proof.
  intros H. rewrite forallb_forall, Forall_forall. split; intros K x X; apply H, K, X.
Qed.

(** ** Splitting at dots *)
Lemma split_go_piece a s acc : ~ In c_dot a -> split_go [c_dot] 0 acc (a ++ s) = split_go [c_dot] 0 (rev a ++ acc) s.
Proof.
  revert acc. induction a as [|c a IH]; intros acc H; [reflexivity|]. cbn [app split_go starts_with].
  assert (C : ceq c_dot c = false) by (apply N.eqb_neq; intros <-; apply H; now left).
  rewrite C. cbn [andb]. rewrite IH by (intros K; apply H; now right). cbn [rev]. now rewrite <- app_assoc.
Qed.
Lemma split_dotted l : l <> [] -> Forall (fun x => ~ In c_dot x) l -> split [c_dot] (dotted l) = l.
Proof.
  unfold split. intros N F. induction F as [|a l A F IH]; [congruence|]. destruct l as [|b l].
  - cbn [dotted]. rewrite <- (app_nil_r a) at 1. rewrite split_go_piece by exact A. cbn [split_go].
    now rewrite app_nil_r, rev_involutive.
  - change (dotted (a :: b :: l)) with (a ++ c_dot :: dotted (b :: l)). rewrite split_go_piece by exact A.
    rewrite app_nil_r. cbn [split_go starts_with length Nat.sub]. change (ceq c_dot c_dot) with true. cbn [andb].
    rewrite rev_involutive. f_equal. apply IH. discriminate.
Qed.
Lemma dotted_split s : dotted (split [c_dot] s) = s /\ split [c_dot] s <> [].
Proof.
  split; [|apply split_go_nonempty]. unfold split.
  assert (G : forall acc, dotted (split_go [c_dot] 0 acc s) = rev acc ++ s).
  { induction s as [|c s IH]; intros acc; cbn [split_go].
    - cbn. now rewrite app_nil_r.
    - cbn [starts_with length Nat.sub]. destruct (ceq c_dot c) eqn:E; cbn [andb].
      + apply N.eqb_eq in E. subst c. specialize (IH []). pose proof (split_go_nonempty [c_dot] 0 [] s) as N0.
        destruct (split_go [c_dot] 0 [] s) as [|a l]; [congruence|].
        change (dotted (rev acc :: a :: l)) with (rev acc ++ c_dot :: dotted (a :: l)). now rewrite IH.
      + rewrite IH. cbn [rev]. now rewrite <- app_assoc. }
  apply (G []).
Qed.
Lemma in_dotted c l : In c (dotted l) -> c = c_dot \/ exists x, In x l /\ In c x.
Proof.
  induction l as [|a l IH]; [easy|]. destruct l as [|b l].
  - intros H. right. exists a. split; [now left|exact H].
  - change (dotted (a :: b :: l)) with (a ++ c_dot :: dotted (b :: l)). intros H.
    apply in_app_or in H as [H|[<-|H]]; [right; exists a; split; [now left|exact H]|now left|].
    destruct (IH H) as [->|(x & X & Hx)]; [now left|]. right. exists x. split; [now right|exact Hx].
Qed.
Lemma id_not x c : id_text x -> is_digit c = false -> ((65 <= c <= 90)%N -> False) -> ((97 <= c <= 122)%N -> False) -> c <> c_minus -> ~ In c x.
Proof. intros [_ H] A B C D K. specialize (H c K). intuition congruence. Qed.
Lemma id_dotted l c : Forall id_text l -> c <> c_dot -> is_digit c = false -> ((65 <= c <= 90)%N -> False) ->
  ((97 <= c <= 122)%N -> False) -> c <> c_minus -> ~ In c (dotted l).
Proof.
  intros F N A B C D K. apply in_dotted in K as [K|(x & X & K)]; [contradiction|].
  rewrite Forall_forall in F. exact (id_not x c (F x X) A B C D K).
Qed.

(** ** Versions *)
Theorem versions s v : read_version s = Some v <-> semver s v.
Proof.
  split.
  - unfold read_version.
    destruct (match split_once c_plus s with
              | Some (a, b) => (a, forallb id_chars (split [c_dot] b))
              | None => (s, true) end) as [s1 bok] eqn:E1.
    destruct (match split_once c_minus s1 with
              | Some (a, b) => (a, Some (split [c_dot] b))
              | None => (s1, None) end) as [s2 p] eqn:E2.
    destruct (split [c_dot] s2) as [|a [|b [|c [|]]]] eqn:E3; try discriminate.
    destruct (number_of a) as [na|] eqn:Na; [|discriminate].
    destruct (number_of b) as [nb|] eqn:Nb; [|discriminate].
    destruct (number_of c) as [nc|] eqn:Nc; [|discriminate].
    destruct (bok && forallb pre_id _) eqn:B; [|discriminate]. intros [= <-].
    apply andb_true_iff in B. destruct B as [B P].
    pose proof (proj1 (dotted_split s2)) as S2. rewrite E3 in S2.
    apply number_of_dec in Na, Nb, Nc. subst a b c. unfold semver. cbn [major minor patch pre].
    apply (all_iff pre_id pre_text) in P; [|exact pre_id_iff]. split; [exact P|].
    assert (R2 : exists b, s = s1 ++ b /\ (b = [] \/ exists l, l <> [] /\ Forall id_text l /\ b = lit "+" ++ dotted l)).
    { destruct (split_once c_plus s) as [[a1 b1]|] eqn:Em; injection E1 as <- <-.
      - apply split_once_some in Em as [-> _]. exists (c_plus :: b1). split; [reflexivity|]. right.
        exists (split [c_dot] b1). destruct (dotted_split b1) as [D N]. split; [exact N|]. split.
        + apply (all_iff id_chars id_text); [exact id_chars_iff|exact B].
        + now rewrite D.
      - exists []. rewrite app_nil_r. auto. }
    destruct R2 as (b & -> & Hb). exists b. split; [|exact Hb].
    assert (R1 : s1 = s2 ++ match match p with Some l => l | None => [] end with [] => [] | l => lit "-" ++ dotted l end).
    { destruct (split_once c_minus s1) as [[a1 b1]|] eqn:Em; injection E2 as <- <-.
      - apply split_once_some in Em as [-> _]. f_equal. destruct (dotted_split b1) as [D N].
        destruct (split [c_dot] b1) as [|x l]; [congruence|]. now rewrite D.
      - now rewrite app_nil_r. }
    rewrite R1, <- S2. cbn [dotted]. now rewrite <- !app_assoc.
  - intros (P & b & -> & Hb). set (m := match pre v with [] => [] | l => lit "-" ++ dotted l end).
    set (core := dec (major v) ++ lit "." ++ dec (minor v) ++ lit "." ++ dec (patch v)).
    replace (dec (major v) ++ lit "." ++ dec (minor v) ++ lit "." ++ dec (patch v) ++ m ++ b) with ((core ++ m) ++ b)
      by (unfold core; now rewrite <- !app_assoc).
    assert (Pi : Forall id_text (pre v)).
    { rewrite Forall_forall in P |- *. intros x X. apply P, X. }
    assert (Cp : forall c, is_digit c = false -> c <> c_dot -> ~ In c core).
    { intros c D1 D2 K. unfold core in K. repeat (apply in_app_or in K as [K|K]);
        try (apply dec_digit in K; congruence); cbn in K; destruct K as [K|[]]; apply D2; symmetry; exact K. }
    assert (Mp : ~ In c_plus (core ++ m)).
    { intros K. apply in_app_or in K as [K|K]; [revert K; apply Cp; [reflexivity|discriminate]|].
      unfold m in K. destruct (pre v) as [|x l] eqn:E; [exact K|]. apply in_app_or in K as [K|K].
      - cbn in K. intuition discriminate.
      - revert K. apply id_dotted; [exact Pi|discriminate|reflexivity|intros [Y1 Y2]; unfold c_plus in *; lia|intros [Y1 Y2]; unfold c_plus in *; lia|discriminate]. }
    unfold read_version.
    assert (E1 : match split_once c_plus ((core ++ m) ++ b) with
              | Some (a, b) => (a, forallb id_chars (split [c_dot] b))
              | None => ((core ++ m) ++ b, true) end = (core ++ m, true)).
    { destruct Hb as [->|(l & L & F & ->)].
      - rewrite app_nil_r. now rewrite (proj2 (split_once_none _ _) Mp).
      - change (lit "+" ++ dotted l) with (c_plus :: dotted l). rewrite split_once_app by exact Mp.
        rewrite split_dotted; [|exact L|].
        + now rewrite (proj2 (all_iff id_chars id_text l id_chars_iff) F).
        + eapply Forall_impl; [|exact F]. intros x X. apply id_not; [exact X|reflexivity|intros [Y1 Y2]; unfold c_dot in *; lia|intros [Y1 Y2]; unfold c_dot in *; lia|discriminate]. }
    match goal with |- (let '(_, _) := ?t in _) = _ => replace t with (core ++ m, true) by (symmetry; exact E1) end.
    cbv iota beta.
    assert (E2 : exists p, match split_once c_minus (core ++ m) with
              | Some (a, b) => (a, Some (split [c_dot] b))
              | None => (core ++ m, None) end = (core, p) /\ match p with Some l => l | None => [] end = pre v).
    { unfold m. destruct (pre v) as [|x l] eqn:E.
      - exists None. rewrite app_nil_r. rewrite (proj2 (split_once_none _ _)); [now split|]. apply Cp; [reflexivity|discriminate].
      - exists (Some (x :: l)). split; [|reflexivity]. change (lit "-" ++ dotted (x :: l)) with (c_minus :: dotted (x :: l)).
        rewrite split_once_app by (apply Cp; [reflexivity|discriminate]).
        rewrite split_dotted; [reflexivity|discriminate|].
        eapply Forall_impl; [|exact Pi]. intros y X. apply id_not; [exact X|reflexivity|intros [Y1 Y2]; unfold c_dot in *; lia|intros [Y1 Y2]; unfold c_dot in *; lia|discriminate]. }
    destruct E2 as (p & E2' & E2).
    match goal with |- (let '(_, _) := ?t in _) = _ => replace t with (core, p) by (symmetry; exact E2') end.
    cbv iota beta.
    assert (E3 : split [c_dot] core = [dec (major v); dec (minor v); dec (patch v)]).
    { change core with (dotted [dec (major v); dec (minor v); dec (patch v)]). apply split_dotted; [discriminate|].
      repeat constructor; now apply not_digit. }
    rewrite E3, !(proj2 (number_of_dec _ _) eq_refl), E2.
    rewrite (proj2 (all_iff pre_id pre_text _ pre_id_iff) P). destruct v; reflexivity.
Qed.
