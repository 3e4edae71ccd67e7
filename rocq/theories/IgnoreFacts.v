(** * IgnoreFacts: the .gitignore files fit exactly what [SpecIgnore] describes. *)
From Coq Require Import Ascii String.
From Verif Require Import Strings StringsFacts Ignore SpecIgnore.
From Verif Require Prepare Cli CliMain.
Open Scope list_scope.

(** ** Patterns for names *)
Lemma fits_chars b ts s :
  fits_name (map Char b ++ ts) s = true <-> exists y, s = b ++ y /\ fits_name ts y = true.
Proof.
  revert s. induction b as [|c b IH]; intros s; cbn [map app].
  - split; [intros H; exists s; auto|intros (y & -> & H); exact H].
  - destruct s as [|x s]; cbn [fits_name].
    + split; [discriminate|intros (y & E & _); discriminate].
    + rewrite andb_true_iff, IH. unfold ceq. rewrite N.eqb_eq. split.
      * intros (-> & y & -> & H). exists y. auto.
      * intros (y & E & H). cbn in E. injection E as -> ->. split; [reflexivity|]. exists y. auto.
Qed.

Lemma fits_many ts s :
  fits_name (Many :: ts) s = true <-> exists x y, s = x ++ y /\ fits_name ts y = true.
Proof.
  cbn [fits_name]. induction s as [|c s IH].
  - rewrite orb_false_r. split; [intros H; exists [], []; auto|].
    intros (x & y & E & H). symmetry in E. apply app_eq_nil in E as [-> ->]. exact H.
  - rewrite orb_true_iff, IH. split.
    + intros [H|(x & y & -> & H)]; [exists [], (c :: s); auto|exists (c :: x), y; auto].
    + intros ([|c' x] & y & E & H); cbn in E.
      * left. rewrite E. exact H.
      * injection E as -> ->. right. exists x, y. auto.
Qed.

Lemma fits_nil s : fits_name [] s = true <-> s = [].
Proof. destruct s; cbn; split; congruence. Qed.

Lemma fits_lit m s : fits_name (map Char m) s = true <-> s = m.
Proof.
  rewrite <- (app_nil_r (map Char m)), fits_chars. split.
  - intros (y & -> & H). apply fits_nil in H as ->. apply app_nil_r.
  - intros ->. exists []. rewrite app_nil_r. auto.
Qed.

Lemma fits_set l ts s :
  fits_name (Set_ false l :: ts) s = true <->
  exists c y, s = c :: y /\ (exists a b, In (a, b) l /\ (a <= c <= b)%N) /\ fits_name ts y = true.
Proof.
  destruct s as [|c s]; cbn [fits_name].
  - split; [discriminate|intros (? & ? & ? & _); discriminate].
  - unfold in_set. rewrite andb_true_iff, xorb_false_l, existsb_exists. split.
    + intros (((a & b) & I & H) & F). rewrite andb_true_iff, !N.leb_le in H. exists c, s. eauto 8.
    + intros (c' & y & E & (a & b & I & H) & F). injection E as -> ->. split; [|exact F].
      exists (a, b). split; [exact I|]. now rewrite andb_true_iff, !N.leb_le.
Qed.

(** ** Rules *)
Definition literally (p : list str) : list segment := map (fun n => Name (map Char n)) p.

Definition digit : token := Set_ false [(48%N, 48%N); (48%N, 57%N)].

(** The rule for a shape. *)
Definition rule_of (x : list str * shape) : rule :=
  let '(b, s) := x in
  match s with
  | Called n => Rule b false false false [Name (map Char n)]
  | Folder n => Rule b false true false [Name (map Char n)]
  | Ends e => Rule b false false false [Name (Many :: map Char e)]
  | Begins p => Rule b false false false [Name (map Char p ++ [Many])]
  | Wrapped p e => Rule b false false false [Name (map Char p ++ Many :: map Char e)]
  | At p => Rule b false false true (literally p)
  | FolderAt p => Rule b false true true (literally p)
  | BeginsIn d p => Rule b false false true (literally d ++ [Name (map Char p ++ [Many])])
  | EndsIn d e => Rule b false false true (literally d ++ [Name (Many :: Many :: map Char e)])
  | Compiled => Rule b false false false [Name (Many :: map Char (lit ".py") ++ [Set_ false (map (fun c => (c, c)) (lit "cod"))])]
  | Report => Rule b false false false [Name (map Char (lit "report.") ++ digit :: Many :: map Char (lit ".") ++
                digit :: Many :: map Char (lit ".") ++ digit :: Many :: map Char (lit ".") ++ digit :: Many :: map Char (lit ".json"))]
  end.

Definition exceptions : list rule :=
  [Rule [] true false true (literally (map lit ["tests"; "run-make"; "thumb-none-qemu"; "example"; ".cargo"]%string));
   Rule [] true true true (literally (map lit ["compiler"; "rustc_mir_build"; "src"; "build"]%string))].

Definition rule_dec (a b : rule) : {a = b} + {a <> b}.
Proof.
  assert (T : forall x y : token, {x = y} + {x <> y}).
  { decide equality; try apply N.eq_dec; try apply Bool.bool_dec.
    apply list_eq_dec. intros [] []. decide equality; apply N.eq_dec. }
  assert (G : forall x y : segment, {x = y} + {x <> y}).
  { decide equality. apply list_eq_dec, T. }
  decide equality; try apply Bool.bool_dec; [apply list_eq_dec, G|].
  apply list_eq_dec, list_eq_dec, N.eq_dec.
Defined.

(** A boolean test of equality. *)
Definition same_rule (a b : rule) : bool := if rule_dec a b then true else false.

Lemma same_rule_eq a b : same_rule a b = true -> a = b.
Proof. unfold same_rule. destruct (rule_dec a b); congruence. Qed.

Lemma all_described r : In r rules -> In r exceptions \/ In r (map rule_of shapes).
Proof.
  assert (H : forallb (fun r => existsb (same_rule r) exceptions || existsb (same_rule r) (map rule_of shapes)) rules = true)
    by (vm_compute; reflexivity).
  rewrite forallb_forall in H. intros I. specialize (H r I).
  rewrite orb_true_iff, !existsb_exists in H.
  destruct H as [(x & J & E)|(x & J & E)]; apply same_rule_eq in E as ->; auto.
Qed.

Lemma all_there r : In r (map rule_of shapes) -> In r rules.
Proof.
  assert (H : forallb (fun r => existsb (same_rule r) rules) (map rule_of shapes) = true)
    by (vm_compute; reflexivity).
  rewrite forallb_forall in H. intros I. specialize (H r I).
  rewrite existsb_exists in H. destruct H as (x & J & E). apply same_rule_eq in E as ->. exact J.
Qed.

Lemma exceptions_keep r : In r exceptions -> keep r = true.
Proof. intros [<-|[<-|[]]]; reflexivity. Qed.

Lemma described_keep x : keep (rule_of x) = false.
Proof. destruct x as [b []]; reflexivity. Qed.

Lemma below_spec b p q : below b p = Some q <-> p = b ++ q.
Proof.
  revert p. induction b as [|x b IH]; intros p; cbn [below app].
  - split; [intros E; injection E as ->; reflexivity|intros ->; reflexivity].
  - destruct p as [|n p]; [split; discriminate|].
    destruct (str_eqb x n) eqn:E.
    + apply str_eqb_eq in E as ->. rewrite IH. split; [intros ->; reflexivity|intros E; injection E as ->; reflexivity].
    + split; [discriminate|]. intros F. injection F as -> _. rewrite str_eqb_refl in E. discriminate.
Qed.

(** The base and the last name of a path. *)
Lemma fits_plain b neg donly ts d n is_dir :
  fits (Rule b neg donly false [Name ts]) (d ++ [n]) is_dir = true <->
  (donly = true -> is_dir = true) /\ (exists d', d = b ++ d') /\ fits_name ts n = true.
Proof.
  unfold fits. cbn [base dir_only anchored pattern].
  rewrite andb_true_iff, orb_true_iff, negb_true_iff.
  assert (D : (is_dir = true \/ donly = false) <-> (donly = true -> is_dir = true)).
  { destruct is_dir, donly; intuition congruence. }
  rewrite D. split.
  - intros (H & F). split; [exact H|]. destruct (below b (d ++ [n])) as [[|m q]|] eqn:E; try discriminate.
    apply below_spec in E. destruct (exists_last (l := m :: q)) as (q' & z & Eq); [discriminate|].
    rewrite Eq, app_assoc in E. apply app_inj_tail in E as [-> ->].
    assert (L : last q m = z).
    { transitivity (last (m :: q) m); [destruct q; reflexivity|]. rewrite Eq. apply last_last. }
    rewrite L in F. cbn [fits_names none] in F. rewrite andb_true_r in F. split; [eauto|exact F].
  - intros (H & (d' & ->) & F). split; [exact H|].
    assert (E : below b ((b ++ d') ++ [n]) = Some (d' ++ [n])) by (apply below_spec; now rewrite app_assoc).
    rewrite E. destruct (d' ++ [n]) as [|m q] eqn:Eq; [destruct d'; discriminate|].
    assert (L : last q m = n).
    { transitivity (last (m :: q) m); [destruct q; reflexivity|]. rewrite <- Eq. apply last_last. }
    rewrite L. cbn [fits_names none]. now rewrite F.
Qed.

Lemma fits_literally_then p x ps :
  fits_names (literally p ++ ps) x = true <-> exists y, x = p ++ y /\ fits_names ps y = true.
Proof.
  revert x. induction p as [|n p IH]; intros x; cbn [literally map app].
  - split; [intros H; exists x; auto|intros (y & -> & H); exact H].
  - destruct x as [|m x]; cbn [fits_names].
    + split; [discriminate|intros (y & E & _); discriminate].
    + fold (literally p). rewrite andb_true_iff, fits_lit, IH. split.
      * intros (-> & y & -> & H). exists y. auto.
      * intros (y & E & H). injection E as -> ->. split; [reflexivity|]. exists y. auto.
Qed.

Lemma fits_anchored b neg donly ps d n is_dir :
  fits (Rule b neg donly true ps) (d ++ [n]) is_dir = true <->
  (donly = true -> is_dir = true) /\ exists d', d = b ++ d' /\ fits_names ps (d' ++ [n]) = true.
Proof.
  unfold fits. cbn [base dir_only anchored pattern].
  rewrite andb_true_iff, orb_true_iff, negb_true_iff.
  assert (D : (is_dir = true \/ donly = false) <-> (donly = true -> is_dir = true)).
  { destruct is_dir, donly; intuition congruence. }
  rewrite D. split.
  - intros (H & F). split; [exact H|]. destruct (below b (d ++ [n])) as [[|m q]|] eqn:E; try discriminate.
    apply below_spec in E. destruct (exists_last (l := m :: q)) as (q' & z & Eq); [discriminate|].
    rewrite Eq in F. rewrite Eq, app_assoc in E. apply app_inj_tail in E as [-> ->]. eauto.
  - intros (H & d' & -> & F). split; [exact H|].
    assert (E : below b ((b ++ d') ++ [n]) = Some (d' ++ [n])) by (apply below_spec; now rewrite app_assoc).
    rewrite E. destruct (d' ++ [n]) as [|m q] eqn:Eq; [destruct d'; discriminate|exact F].
Qed.

Lemma literally_last d' n p : fits_names (literally p) (d' ++ [n]) = true <-> d' ++ [n] = p.
Proof.
  rewrite <- (app_nil_r (literally p)), fits_literally_then. split.
  - intros (y & -> & H). destruct y; [apply app_nil_r|discriminate].
  - intros ->. exists []. rewrite app_nil_r. auto.
Qed.

Lemma literally_in d' n p ts :
  fits_names (literally p ++ [Name ts]) (d' ++ [n]) = true <-> d' = p /\ fits_name ts n = true.
Proof.
  rewrite fits_literally_then. split.
  - intros (y & E & H). destruct y as [|m [|? ?]]; [discriminate| |cbn in H; rewrite andb_false_r in H; discriminate].
    apply app_inj_tail in E as [-> ->]. cbn in H. rewrite andb_true_r in H. auto.
  - intros (-> & H). exists [n]. split; [reflexivity|]. cbn. now rewrite H.
Qed.

Lemma fits_digit_then ts s :
  fits_name (digit :: Many :: ts) s = true <-> exists a y, number a /\ s = a ++ y /\ fits_name ts y = true.
Proof.
  unfold digit. rewrite fits_set. split.
  - intros (c & y & -> & (a & b & I & H) & F).
    assert (D : (48 <= c <= 57)%N) by (destruct I as [E|[E|[]]]; injection E as <- <-; lia).
    apply fits_many in F as (u & v & -> & F). exists (c :: u), v. split; [|split; [reflexivity|exact F]].
    exists c, u. auto.
  - intros (a & y & (c & u & -> & H) & -> & F). exists c, (u ++ y). split; [reflexivity|]. split.
    + exists 48%N, 57%N. cbn. auto.
    + apply fits_many. eauto.
Qed.

Lemma described_fits b s d n is_dir :
  fits (rule_of (b, s)) (d ++ [n]) is_dir = true <->
  exists d', d = b ++ d' /\ holds s d' n (is_dir = true).
Proof.
  destruct s; cbn [rule_of holds];
    rewrite ?fits_plain, ?fits_anchored.
  - rewrite fits_lit. split; [intros (_ & (d' & ->) & ->); eauto|intros (d' & -> & ->)].
    split; [discriminate|eauto].
  - rewrite fits_lit. split; [intros (H & (d' & ->) & ->); eauto|intros (d' & -> & -> & H)]; eauto.
  - rewrite fits_many. split.
    + intros (_ & (d' & ->) & x & y & -> & F). apply fits_lit in F as ->. eauto.
    + intros (d' & -> & x & ->). split; [discriminate|]. split; [eauto|]. exists x, e. split; [reflexivity|]. now apply fits_lit.
  - rewrite fits_chars. split.
    + intros (_ & (d' & ->) & y & -> & F). eauto.
    + intros (d' & -> & x & ->). split; [discriminate|]. split; [eauto|]. exists x. split; [reflexivity|].
      apply fits_many. exists x, []. rewrite app_nil_r. auto.
  - rewrite fits_chars. split.
    + intros (_ & (d' & ->) & y & -> & F). apply fits_many in F as (u & v & -> & F). apply fits_lit in F as ->. eauto.
    + intros (d' & -> & x & ->). split; [discriminate|]. split; [eauto|]. exists (x ++ e). split; [reflexivity|].
      apply fits_many. exists x, e. split; [reflexivity|]. now apply fits_lit.
  - split.
    + intros (_ & d' & -> & F). apply literally_last in F. eauto.
    + intros (d' & -> & F). split; [discriminate|]. exists d'. split; [reflexivity|]. now apply literally_last.
  - split.
    + intros (H & d' & -> & F). apply literally_last in F. exists d'. auto.
    + intros (d' & -> & F & H). split; [auto|]. exists d'. split; [reflexivity|]. now apply literally_last.
  - split.
    + intros (_ & d' & -> & F). apply literally_in in F as (-> & F). apply fits_chars in F as (y & -> & _). eauto 6.
    + intros (d' & -> & -> & x & ->). split; [discriminate|]. eexists. split; [reflexivity|]. apply literally_in.
      split; [reflexivity|]. apply fits_chars. exists x. split; [reflexivity|]. apply fits_many. exists x, [].
      rewrite app_nil_r. auto.
  - split.
    + intros (_ & d' & -> & F). apply literally_in in F as (-> & F). apply fits_many in F as (u & v & -> & F).
      apply fits_many in F as (u' & v' & -> & F). apply fits_lit in F as ->. rewrite app_assoc. eauto 6.
    + intros (d' & -> & -> & x & ->). split; [discriminate|]. eexists. split; [reflexivity|]. apply literally_in.
      split; [reflexivity|]. apply fits_many. exists x, e. split; [reflexivity|]. apply fits_many. exists [], e.
      split; [reflexivity|]. now apply fits_lit.
  - rewrite fits_many. split.
    + intros (_ & (d' & ->) & x & y & -> & F). exists d'. split; [reflexivity|]. exists x.
      apply fits_chars in F as (z & -> & F). apply fits_set in F as (c & w & -> & (a & b' & I & H) & F).
      apply fits_nil in F as ->.
      destruct I as [I|[I|[I|[]]]]; injection I as <- <-;
        [left|right; left|right; right]; (replace c with (fst (c, c)) by reflexivity; cbn [fst]).
      * assert (c = 99%N) as -> by (cbn in H; lia). reflexivity.
      * assert (c = 111%N) as -> by (cbn in H; lia). reflexivity.
      * assert (c = 100%N) as -> by (cbn in H; lia). reflexivity.
    + intros (d' & -> & x & H). split; [discriminate|]. split; [eauto|]. exists x.
      assert (F : exists c, In c (lit "cod") /\ n = x ++ lit ".py" ++ [c]).
      { destruct H as [-> |[-> | ->]]; [exists 99%N|exists 111%N|exists 100%N]; (split; [cbn; auto|reflexivity]). }
      destruct F as (c & I & ->). exists (lit ".py" ++ [c]). split; [reflexivity|].
      apply fits_chars. exists [c]. split; [reflexivity|]. apply fits_set. exists c, []. split; [reflexivity|].
      split; [|reflexivity]. exists c, c. split; [|lia]. apply in_map_iff. eauto.
  - rewrite fits_chars. split.
    + intros (_ & (d' & ->) & y & -> & F). exists d'. split; [reflexivity|].
      apply fits_digit_then in F as (a1 & y1 & A1 & -> & F). apply fits_chars in F as (z1 & -> & F).
      apply fits_digit_then in F as (a2 & y2 & A2 & -> & F). apply fits_chars in F as (z2 & -> & F).
      apply fits_digit_then in F as (a3 & y3 & A3 & -> & F). apply fits_chars in F as (z3 & -> & F).
      apply fits_digit_then in F as (a4 & y4 & A4 & -> & F). apply fits_lit in F as ->.
      exists a1, a2, a3, a4. auto.
    + intros (d' & -> & a1 & a2 & a3 & a4 & A1 & A2 & A3 & A4 & ->). split; [discriminate|]. split; [eauto|].
      eexists. split; [reflexivity|].
      apply fits_digit_then. exists a1. eexists. split; [exact A1|]. split; [reflexivity|].
      apply fits_chars. eexists. split; [reflexivity|].
      apply fits_digit_then. exists a2. eexists. split; [exact A2|]. split; [reflexivity|].
      apply fits_chars. eexists. split; [reflexivity|].
      apply fits_digit_then. exists a3. eexists. split; [exact A3|]. split; [reflexivity|].
      apply fits_chars. eexists. split; [reflexivity|].
      apply fits_digit_then. exists a4. eexists. split; [exact A4|]. split; [reflexivity|].
      now apply fits_lit.
Qed.

(** ** All rules together *)
Lemma excluded_any rs p b :
  (forall r, In r rs -> keep r = true -> fits r p b = false) ->
  (excluded rs p b = Some true <-> exists r, In r rs /\ keep r = false /\ fits r p b = true).
Proof.
  induction rs as [|r rs IH]; intros H; cbn [excluded].
  - split; [discriminate|intros (r & [] & _)].
  - assert (H' : forall r, In r rs -> keep r = true -> fits r p b = false) by (intros; apply H; [right|]; assumption).
    specialize (IH H'). clear H'. destruct (excluded rs p b) as [[|]|] eqn:E.
    + split; [|reflexivity]. intros _. destruct (proj1 IH eq_refl) as (r' & I & K). exists r'. split; [right; exact I|exact K].
    + exfalso. clear IH.
      assert (A : forall rs, excluded rs p b = Some false -> exists r, In r rs /\ keep r = true /\ fits r p b = true).
      { clear. induction rs as [|r rs IH]; cbn [excluded]; [discriminate|].
        destruct (excluded rs p b) as [c|].
        - intros E. destruct (IH E) as (r' & I & K). exists r'. split; [right; exact I|exact K].
        - destruct (fits r p b) eqn:F; [|discriminate]. intros E. exists r. split; [left; reflexivity|].
          split; [|exact F]. destruct (keep r); [reflexivity|discriminate]. }
      destruct (A rs E) as (r' & I & K & F). rewrite (H r' (or_intror I) K) in F. discriminate.
    + destruct (fits r p b) eqn:F.
      * assert (K : keep r = false).
        { destruct (keep r) eqn:K; [|reflexivity]. rewrite (H r (or_introl eq_refl) K) in F. discriminate. }
        rewrite K. split; [|reflexivity]. intros _. exists r. split; [left; reflexivity|auto].
      * split; [discriminate|]. intros (r' & [<-|I] & K & F'); [congruence|].
        apply IH. eauto.
Qed.

Lemma excluded_iff d n is_dir :
  excluded rules (d ++ [n]) is_dir = Some true <->
  ~ exempt (d ++ [n]) (is_dir = true) /\
  exists b s d', In (b, s) shapes /\ d = b ++ d' /\ holds s d' n (is_dir = true).
Proof.
  assert (X : (exists r, In r exceptions /\ fits r (d ++ [n]) is_dir = true) <-> exempt (d ++ [n]) (is_dir = true)).
  { unfold exempt, exceptions. split.
    - intros (r & [<-|[<-|[]]] & F); apply fits_anchored in F as (D & d' & E & F); apply literally_last in F; cbn in E; subst d';
        [left; exact F|right; auto].
    - intros [E|(E & ->)].
      + eexists. split; [left; reflexivity|]. apply fits_anchored. split; [discriminate|].
        exists d. split; [reflexivity|]. now apply literally_last.
      + eexists. split; [right; left; reflexivity|]. apply fits_anchored. split; [reflexivity|].
        exists d. split; [reflexivity|]. now apply literally_last. }
  assert (Y : (exists r, In r rules /\ keep r = false /\ fits r (d ++ [n]) is_dir = true) <->
              exists b s d', In (b, s) shapes /\ d = b ++ d' /\ holds s d' n (is_dir = true)).
  { split.
    - intros (r & I & K & F). destruct (all_described r I) as [J|J].
      + rewrite (exceptions_keep r J) in K. discriminate.
      + apply in_map_iff in J as ((b & s) & <- & J). apply described_fits in F as (d' & E & F). exists b, s, d'. auto.
    - intros (b & s & d' & I & E & F). exists (rule_of (b, s)). split; [apply all_there, in_map, I|].
      split; [apply described_keep|]. apply described_fits. eauto. }
  destruct (existsb (fun r => fits r (d ++ [n]) is_dir) exceptions) eqn:Q.
  - apply existsb_exists in Q. assert (EX := proj1 X Q). split; [|intros (H & _); contradiction].
    intros E. exfalso. destruct EX as [P|(P & ->)]; rewrite P in E; [destruct is_dir|]; vm_compute in E; discriminate.
  - rewrite excluded_any.
    + rewrite Y. split; [|intros (_ & H); exact H]. intros H. split; [|exact H]. intros P. apply X in P.
      apply (existsb_exists (fun r => fits r (d ++ [n]) is_dir)) in P. rewrite Q in P. discriminate.
    + intros r I K. destruct (all_described r I) as [J|J].
      * destruct (fits r (d ++ [n]) is_dir) eqn:F; [|reflexivity].
        assert (P : existsb (fun r => fits r (d ++ [n]) is_dir) exceptions = true) by (apply existsb_exists; eauto).
        congruence.
      * apply in_map_iff in J as (x & <- & _). rewrite described_keep in K. discriminate.
Qed.

Lemma exempt_iff p (A B : Prop) : (A <-> B) -> exempt p A <-> exempt p B.
Proof. unfold exempt. intros H. rewrite H. reflexivity. Qed.
Lemma holds_iff s d n (A B : Prop) : (A <-> B) -> holds s d n A <-> holds s d n B.
Proof. intros H. destruct s; cbn [holds]; rewrite ?H; reflexivity. Qed.

Lemma ignored_below_iff rest dir :
  ignored_below rules dir rest = true <->
  exists d n r, rest = d ++ n :: r /\ excluded rules ((dir ++ d) ++ [n]) (negb (none r)) = Some true.
Proof.
  revert dir. induction rest as [|x rest IH]; intros dir; cbn [ignored_below].
  - split; [discriminate|]. intros (d & n & r & E & _). destruct d; discriminate.
  - assert (N : (exists d n r, rest = d ++ n :: r /\ excluded rules (((dir ++ [x]) ++ d) ++ [n]) (negb (none r)) = Some true) ->
                exists d n r, x :: rest = d ++ n :: r /\ excluded rules ((dir ++ d) ++ [n]) (negb (none r)) = Some true).
    { intros (d & n & r & -> & E). exists (x :: d), n, r. split; [reflexivity|].
      rewrite <- (app_assoc dir [x] d) in E. exact E. }
    assert (M : excluded rules (dir ++ [x]) (negb (none rest)) <> Some true ->
                (exists d n r, x :: rest = d ++ n :: r /\ excluded rules ((dir ++ d) ++ [n]) (negb (none r)) = Some true) ->
                exists d n r, rest = d ++ n :: r /\ excluded rules (((dir ++ [x]) ++ d) ++ [n]) (negb (none r)) = Some true).
    { intros K (d & n & r & E & F). destruct d as [|y d]; cbn in E.
      - injection E as -> ->. rewrite app_nil_r in F. contradiction.
      - injection E as -> ->. exists d, n, r. split; [reflexivity|]. rewrite <- (app_assoc dir [y] d). exact F. }
    destruct (excluded rules (dir ++ [x]) (negb (none rest))) as [[|]|] eqn:E.
    + split; [|reflexivity]. intros _. exists [], x, rest. split; [reflexivity|]. rewrite app_nil_r. exact E.
    + rewrite IH. split; [exact N|]. apply M. discriminate.
    + rewrite IH. split; [exact N|]. apply M. discriminate.
Qed.

Theorem ignored_iff p : ignored p = true <-> left_out p.
Proof.
  unfold ignored, left_out. rewrite ignored_below_iff.
  assert (R : forall r : list str, negb (none r) = true <-> r <> []).
  { intros []; cbn; split; congruence. }
  split.
  - intros (d & n & r & -> & E). cbn [app] in E. apply excluded_iff in E as (X & b & s & d' & I & -> & H).
    exists (b ++ d'), n, r. split; [reflexivity|]. split.
    + intros Y. apply X. apply (exempt_iff _ _ _ (R r)), Y.
    + exists b, s, d'. split; [exact I|]. split; [reflexivity|]. apply (holds_iff _ _ _ _ _ (R r)), H.
  - intros (d & n & r & -> & X & b & s & d' & I & -> & H). exists (b ++ d'), n, r. split; [reflexivity|].
    cbn [app]. apply excluded_iff. split.
    + intros Y. apply X. apply (exempt_iff _ _ _ (R r)), Y.
    + exists b, s, d'. split; [exact I|]. split; [reflexivity|]. apply (holds_iff _ _ _ _ _ (R r)), H.
Qed.

(** ** The commit of a release *)
Definition tracked (r : Prepare.repo) (p : str) : Prop := Prepare.get (Prepare.head_tree (Prepare.log r)) p <> None.

Lemma get_filter (f : str -> bool) t p :
  Prepare.get (filter (fun e => f (fst e)) t) p = if f p then Prepare.get t p else None.
Proof.
  induction t as [|[q x] t IH]; cbn [filter Prepare.get fst].
  - destruct (f p); reflexivity.
  - destruct (f q) eqn:F; cbn [Prepare.get]; destruct (str_eqb p q) eqn:E; rewrite ?IH; try reflexivity.
    + apply str_eqb_eq in E as ->. now rewrite F.
    + apply str_eqb_eq in E as ->. now rewrite F.
Qed.

Lemma get_on ok which f t p :
  Prepare.get (Prepare.on ok which f t) p =
  option_map (fun x => if ok && which p then f x else x) (Prepare.get t p).
Proof.
  induction t as [|[q x] t IH]; cbn [Prepare.on map Prepare.get fst snd]; [reflexivity|].
  destruct (ok && which q) eqn:W; cbn [Prepare.get]; destruct (str_eqb p q) eqn:E; cbn [option_map];
    try (apply str_eqb_eq in E as ->; now rewrite W); exact IH.
Qed.

Lemma get_edit ok tag t p :
  Prepare.get (Prepare.edit_tree ok tag t) p <> None <-> Prepare.get t p <> None.
Proof.
  unfold Prepare.edit_tree. rewrite !get_on. destruct (Prepare.get t p); cbn [option_map]; split; congruence.
Qed.

Lemma get_put t p x q :
  Prepare.get (Prepare.put t p x) q = if str_eqb q p then Some x else Prepare.get t q.
Proof.
  induction t as [|[k y] t IH]; cbn [Prepare.put Prepare.get].
  - destruct (str_eqb q p); reflexivity.
  - destruct (str_eqb p k) eqn:E; cbn [Prepare.get].
    + apply str_eqb_eq in E as <-. destruct (str_eqb q p); reflexivity.
    + destruct (str_eqb q k) eqn:F.
      * destruct (str_eqb q p) eqn:G; [|reflexivity]. apply str_eqb_eq in F as ->. apply str_eqb_eq in G as ->.
        rewrite str_eqb_refl in E. discriminate.
      * exact IH.
Qed.

Lemma get_added index disk p :
  Prepare.get (added index disk) p =
  match Prepare.get index p with
  | Some _ => Prepare.get disk p
  | None => if ignored (names_of p) then None else Prepare.get disk p
  end.
Proof.
  unfold added.
  rewrite (get_filter (fun q => match Prepare.get index q with Some _ => true | None => negb (ignored (names_of q)) end)).
  destruct (Prepare.get index p); [reflexivity|]. destruct (ignored (names_of p)); reflexivity.
Qed.

Lemma release_commit upper hash_of day ok tag r c :
  Prepare.log (release_disk upper hash_of day ok tag r) = c :: Prepare.log r ->
  Prepare.s_tree c = Prepare.prepared upper ok tag
    (Prepare.Repo (Prepare.log r) (Prepare.tags r) (added (Prepare.head_tree (Prepare.log r)) (Prepare.work r))).
Proof.
  unfold release_disk, Prepare.release_sh.
  assert (N : forall (l : list Prepare.snapshot) x, l <> x :: l).
  { intros l x E. apply (f_equal (@length _)) in E. cbn in E. lia. }
  destruct (is_empty tag).
  - cbn [Prepare.log]. intros E. destruct (N _ _ E).
  - set (r0 := Prepare.Repo _ _ (added _ _)). set (r1 := Prepare.Repo _ _ (Prepare.prepared _ _ _ _)).
    assert (L : forall q, Prepare.log (Prepare.tag_head ok tag q) = Prepare.log q).
    { intros q. unfold Prepare.tag_head. destruct q as [l ts w]. cbn [Prepare.log Prepare.tags Prepare.work].
      destruct (ok Release.TagIt), (Prepare.target ts tag), l; reflexivity. }
    rewrite L. unfold Prepare.commit_all.
    destruct (ok Release.Add && ok Release.Commit && negb (Prepare.same (Prepare.work r1) (Prepare.head_tree (Prepare.log r1)))).
    + cbn [Prepare.log r1]. intros E. apply (f_equal (@hd_error _)) in E. cbn [hd_error] in E.
      assert (C : forall x y : Prepare.snapshot, Some x = Some y -> y = x) by congruence.
      apply C in E. rewrite E. reflexivity.
    + cbn [Prepare.log r1 r0]. intros E. destruct (N _ _ E).
Qed.

(** Exactly which files are in the commit. *)
Lemma commit_files upper hash_of day ok tag r c p :
  Prepare.log (release_disk upper hash_of day ok tag r) = c :: Prepare.log r ->
  (Prepare.get (Prepare.s_tree c) p <> None <->
   p = lit "CHANGELOG.md" \/
   (Prepare.get (Prepare.work r) p <> None /\ (tracked r p \/ ~ left_out (names_of p)))).
Proof.
  intros H. apply release_commit in H. rewrite H. clear H. unfold Prepare.prepared. rewrite get_put.
  destruct (str_eqb p Prepare.changelog_path) eqn:E.
  - apply str_eqb_eq in E as ->. split; [left; reflexivity|discriminate].
  - rewrite get_edit. cbn [Prepare.work]. rewrite get_added. unfold tracked.
    assert (Q : p <> lit "CHANGELOG.md").
    { intros ->. change (lit "CHANGELOG.md") with Prepare.changelog_path in E. rewrite str_eqb_refl in E. discriminate. }
    destruct (Prepare.get (Prepare.head_tree (Prepare.log r)) p).
    + split; [intros W; right; split; [exact W|left; discriminate]|intros [->|(W & _)]; [contradiction|exact W]].
    + destruct (ignored (names_of p)) eqn:I.
      * apply ignored_iff in I. split; [congruence|intros [->|(_ & [X|X])]; [contradiction|congruence|contradiction]].
      * assert (L : ~ left_out (names_of p)) by (intros L; apply ignored_iff in L; congruence).
        split; [intros W; right; auto|intros [->|(W & _)]; [contradiction|exact W]].
Qed.

(** Files with certain texts stay as they are. *)
Lemma commit_text upper hash_of day ok tag r c p :
  Prepare.log (release_disk upper hash_of day ok tag r) = c :: Prepare.log r ->
  p <> lit "CHANGELOG.md" -> ~ (exists d, p = d ++ lit "/Cargo.toml") -> p <> lit "npm/smd/package.json" ->
  tracked r p \/ ~ left_out (names_of p) ->
  Prepare.get (Prepare.s_tree c) p = Prepare.get (Prepare.work r) p.
Proof.
  intros H N1 N2 N3 T. apply release_commit in H. rewrite H. clear H. unfold Prepare.prepared. rewrite get_put.
  destruct (str_eqb p Prepare.changelog_path) eqn:E; [apply str_eqb_eq in E; contradiction|]. clear E.
  assert (G : Prepare.get (added (Prepare.head_tree (Prepare.log r)) (Prepare.work r)) p = Prepare.get (Prepare.work r) p).
  { rewrite get_added. unfold tracked in T. destruct (Prepare.get (Prepare.head_tree (Prepare.log r)) p); [reflexivity|].
    destruct (ignored (names_of p)) eqn:I; [|reflexivity]. apply ignored_iff in I. destruct T; [congruence|contradiction]. }
  unfold Prepare.edit_tree. rewrite !get_on. cbn [Prepare.work]. rewrite G.
  assert (A : str_eqb Prepare.package_path p = false).
  { destruct (str_eqb Prepare.package_path p) eqn:E; [|reflexivity]. apply str_eqb_eq in E. destruct N3. rewrite <- E. reflexivity. }
  assert (B : str_eqb Prepare.gfm_path p = false).
  { destruct (str_eqb Prepare.gfm_path p) eqn:E; [|reflexivity]. apply str_eqb_eq in E. destruct N2. exists (lit "gfm").
    rewrite <- E. reflexivity. }
  assert (C : Prepare.smd_path p = false).
  { destruct (Prepare.smd_path p) eqn:E; [|reflexivity]. unfold Prepare.smd_path in E. apply andb_true_iff in E as [_ E].
    assert (D : forall s, Prepare.dir_then_toml s = true -> exists d, s = d ++ lit "/Cargo.toml").
    { induction s as [|x s IH]; cbn [Prepare.dir_then_toml]; [discriminate|]. intros K. apply orb_true_iff in K as [K|K].
      - apply str_eqb_eq in K. exists []. exact K.
      - apply andb_true_iff in K as [_ K]. destruct (IH K) as (d & ->). exists (x :: d). reflexivity. }
    destruct (D _ E) as (d & K). destruct N2. exists (firstn 3 p ++ d). rewrite <- app_assoc, <- K. symmetry. apply firstn_skipn. }
  rewrite A, B, C, !andb_false_r. destruct (Prepare.get (Prepare.work r) p); reflexivity.
Qed.

Lemma page_left_out d n : (exists x, n = x ++ lit ".html" \/ n = x ++ lit ".pdf") -> left_out (d ++ [n]).
Proof.
  intros (x & H). exists d, n, []. split; [reflexivity|]. split.
  - intros [E|(_ & E)]; [|congruence].
    change (map lit ["tests"; "run-make"; "thumb-none-qemu"; "example"; ".cargo"]%string) with
      (map lit ["tests"; "run-make"; "thumb-none-qemu"; "example"]%string ++ [lit ".cargo"]) in E.
    apply app_inj_tail in E as [_ E]. rewrite E in H.
    destruct H as [H|H]; apply (f_equal (@rev _)) in H; rewrite rev_app_distr in H; discriminate.
  - destruct H as [->| ->].
    + exists [], (Ends (lit ".html")), d. split; [|split; [reflexivity|exists x; reflexivity]].
      apply in_or_app. left. apply in_map. unfold everywhere. do 2 (apply in_or_app; right). apply in_or_app. left.
      apply in_map_iff. exists ".html"%string. cbn. auto.
    + exists [], (Ends (lit ".pdf")), d. split; [|split; [reflexivity|exists x; reflexivity]].
      apply in_or_app. left. apply in_map. unfold everywhere. do 2 (apply in_or_app; right). apply in_or_app. left.
      apply in_map_iff. exists ".pdf"%string. cbn. auto.
Qed.

(** The same for what is described by a shape. *)
Lemma described_left_out b s d n r :
  In (b, s) shapes -> holds s d n (r <> []) -> ~ exempt ((b ++ d) ++ [n]) (r <> []) -> left_out ((b ++ d) ++ n :: r).
Proof. intros I H X. exists (b ++ d), n, r. split; [reflexivity|]. split; [exact X|]. exists b, s, d. auto. Qed.

Definition pair_dec (a b : list str * shape) : {a = b} + {a <> b}.
Proof.
  assert (S : forall x y : shape, {x = y} + {x <> y}).
  { decide equality; try apply list_eq_dec; try apply N.eq_dec; apply list_eq_dec, N.eq_dec. }
  decide equality. apply list_eq_dec, list_eq_dec, N.eq_dec.
Defined.

Lemma in_shapes x : (if in_dec pair_dec x shapes then true else false) = true -> In x shapes.
Proof. destruct (in_dec pair_dec x shapes); [auto|discriminate]. Qed.

Lemma not_exempt d n P :
  n <> lit ".cargo" -> (n = lit "build" -> d <> map lit ["compiler"; "rustc_mir_build"; "src"]%string) -> ~ exempt (d ++ [n]) P.
Proof.
  intros A B [E|(E & _)].
  - change (map lit ["tests"; "run-make"; "thumb-none-qemu"; "example"; ".cargo"]%string) with
      (map lit ["tests"; "run-make"; "thumb-none-qemu"; "example"]%string ++ [lit ".cargo"]) in E.
    apply app_inj_tail in E as [_ E]. contradiction.
  - change (map lit ["compiler"; "rustc_mir_build"; "src"; "build"]%string) with
      (map lit ["compiler"; "rustc_mir_build"; "src"]%string ++ [lit "build"]) in E.
    apply app_inj_tail in E as [E F]. apply (B F E).
Qed.

Lemma built_left_out p : built p -> left_out p.
Proof.
  intros (r & R & H).
  assert (K : forall b s d n, (if in_dec pair_dec (b, s) shapes then true else false) = true ->
    holds s d n (r <> []) -> n <> lit ".cargo" -> n <> lit "build" -> left_out ((b ++ d) ++ n :: r)).
  { intros b s d n I H0 A B. apply (described_left_out b s d n r); [apply in_shapes, I|exact H0|].
    apply not_exempt; [exact A|contradiction]. }
  destruct H as [->|[->|[->|(d & [-> | ->])]]].
  - apply (K [] (At [lit "target"]) []); [vm_compute; reflexivity|reflexivity|discriminate|discriminate].
  - apply (K [lit "npm"; lit "smd"] (Called (lit "lib")) []); [vm_compute; reflexivity|reflexivity|discriminate|discriminate].
  - apply (K [lit "pypi"] (Called (lit "wheels")) []); [vm_compute; reflexivity|reflexivity|discriminate|discriminate].
  - apply (K [] (Called (lit "node_modules")) d); [vm_compute; reflexivity|reflexivity|discriminate|discriminate].
  - apply (K [] (Folder (lit "__pycache__")) d); [vm_compute; reflexivity|split; [reflexivity|exact R]|discriminate|discriminate].
Qed.

Lemma build_left_out d r :
  r <> [] -> d <> map lit ["compiler"; "rustc_mir_build"; "src"]%string -> left_out (d ++ lit "build" :: r).
Proof.
  intros R D. apply (described_left_out [] (Folder (lit "build")) d).
  - apply in_shapes. vm_compute. reflexivity.
  - split; [reflexivity|exact R].
  - apply not_exempt; [discriminate|auto].
Qed.

Lemma on_slashes_plain n : ~ In 47%N n -> on_slashes n = [n].
Proof.
  induction n as [|c n IH]; intros H; cbn [on_slashes]; [reflexivity|].
  assert (C : ceq c 47%N = false) by (unfold ceq; apply N.eqb_neq; intros ->; apply H; left; reflexivity).
  rewrite C, IH; [reflexivity|]. intros I. apply H. right. exact I.
Qed.

Lemma on_slashes_cons n s : ~ In 47%N n -> on_slashes (n ++ lit "/" ++ s) = n :: on_slashes s.
Proof.
  induction n as [|c n IH]; intros H.
  - reflexivity.
  - cbn [app on_slashes].
    assert (C : ceq c 47%N = false) by (unfold ceq; apply N.eqb_neq; intros ->; apply H; left; reflexivity).
    rewrite C, IH; [reflexivity|]. intros I. apply H. right. exact I.
Qed.

Lemma names_joined l : named l -> names_of (joined l) = l.
Proof.
  unfold names_of. intros [N F]. induction F as [|n l H F IH]; [contradiction|].
  destruct l as [|m l]; [apply on_slashes_plain, H|].
  change (joined (n :: m :: l)) with (n ++ lit "/" ++ joined (m :: l)).
  rewrite on_slashes_cons by exact H. rewrite IH by discriminate. reflexivity.
Qed.

(** The commit, by the names of the files. *)
Lemma commit_named upper hash_of day ok tag r c l :
  Prepare.log (release_disk upper hash_of day ok tag r) = c :: Prepare.log r -> named l ->
  (Prepare.get (Prepare.s_tree c) (joined l) <> None <->
   joined l = lit "CHANGELOG.md" \/
   (Prepare.get (Prepare.work r) (joined l) <> None /\ (tracked r (joined l) \/ ~ left_out l))).
Proof. intros H N. rewrite (commit_files _ _ _ _ _ _ _ _ H), names_joined by exact N. reflexivity. Qed.

Lemma changelog_not_left_out : ~ left_out [lit "CHANGELOG.md"].
Proof. intros H. apply ignored_iff in H. vm_compute in H. discriminate. Qed.

Lemma joined_changelog l : named l -> joined l = lit "CHANGELOG.md" -> l = [lit "CHANGELOG.md"].
Proof. intros N E. rewrite <- (names_joined l N), E. vm_compute. reflexivity. Qed.

(** What is left out and not in the index is not in the commit. *)
Lemma not_committed upper hash_of day ok tag r c l :
  Prepare.log (release_disk upper hash_of day ok tag r) = c :: Prepare.log r -> named l ->
  left_out l -> ~ tracked r (joined l) -> Prepare.get (Prepare.s_tree c) (joined l) = None.
Proof.
  intros H N L T. destruct (Prepare.get (Prepare.s_tree c) (joined l)) eqn:E; [|reflexivity]. exfalso.
  assert (K : Prepare.get (Prepare.s_tree c) (joined l) <> None) by congruence.
  apply (commit_named _ _ _ _ _ _ _ _ H N) in K as [K|(_ & [K|K])]; [|contradiction|contradiction].
  apply (joined_changelog l N) in K. subst l. apply changelog_not_left_out, L.
Qed.

Lemma output_named d n o : exists x, Cli.out_path (d ++ [n]) o = d ++ [x] /\ exists y, x = y ++ lit ".html" \/ x = y ++ lit ".pdf".
Proof.
  unfold Cli.out_path. rewrite CliMain.set_extension_at. eexists. split; [reflexivity|].
  exists (Cli.file_stem n). destruct o; [right|left]; reflexivity.
Qed.

Lemma outputs_stay upper hash_of day ok tag r c d n o out dir :
  Prepare.log (release_disk upper hash_of day ok tag r) = c :: Prepare.log r ->
  Cli.out_path (d ++ [n]) o = d ++ [out] \/ out = Cli.tmp_name ->
  named (dir ++ [out]) -> ~ tracked r (joined (dir ++ [out])) ->
  Prepare.get (Prepare.s_tree c) (joined (dir ++ [out])) = None.
Proof.
  intros H O N T. apply (not_committed _ _ _ _ _ _ _ _ H N); [|exact T]. apply page_left_out.
  destruct O as [O| ->]; [|exists (lit "tmp"); left; reflexivity].
  destruct (output_named d n o) as (x & E & y & Y). rewrite E in O. apply app_inj_tail in O as [_ ->]. eauto.
Qed.

Lemma leftovers_committed upper hash_of day ok tag r c n x :
  Prepare.log (release_disk upper hash_of day ok tag r) = c :: Prepare.log r ->
  In n of_tests -> Prepare.get (Prepare.work r) (joined (leftover n)) = Some x ->
  Prepare.get (Prepare.s_tree c) (joined (leftover n)) = Some x.
Proof.
  intros H I G. rewrite <- G. apply (commit_text _ _ _ _ _ _ _ _ H);
    try (destruct I as [<-|[<-|[]]]; discriminate).
  - intros (d & E). apply (f_equal (@rev _)) in E. rewrite rev_app_distr in E.
    destruct I as [<-|[<-|[]]]; discriminate.
  - right. intros L. apply ignored_iff in L. destruct I as [<-|[<-|[]]]; vm_compute in L; discriminate.
Qed.

(** A repository for the examples: a source file is tracked, and around it lie a page, a file of a test and
    a new source file. *)
Definition head0 : Prepare.snapshot :=
  Prepare.Snapshot (lit "h0") (lit "feat: all") (lit "2025-01-01") [(lit "smd/src/lib.rs", lit "mod a;")].
Definition repo0 : Prepare.repo :=
  Prepare.Repo [head0] []
    [(lit "smd/src/lib.rs", lit "mod a;"); (lit "README.html", lit "<h1>smd</h1>"); (lit "smd-core/test_file.txt", lit "text");
     (lit "smd/src/build/mod.rs", lit "fn f() {}"); (lit "target/debug/smd", lit "ELF")].
Definition after0 : Prepare.repo :=
  release_disk (fun c => [c]) (fun _ _ _ => lit "h1") (lit "2025-01-07") (fun _ => true) (lit "v0.1.3") repo0.
