(** * ReleaseProps: whole releases. *)
From Coq Require Import Ascii String Permutation.
From Verif Require Import Strings StringsFacts Npm Release SpecRelease ReleaseFacts.
Open Scope list_scope.

(** ** Lines *)
Lemma lines_no_nl s : Forall no_nl (lines s) /\ lines s <> [].
Proof.
  induction s as [|c s [F N0]]; cbn [lines].
  - split; [constructor; [intros []|constructor]|discriminate].
  - destruct (ceq c c_nl) eqn:E.
    + split; [constructor; [intros []|exact F]|discriminate].
    + destruct (lines s) as [|l ls]; [congruence|]. inversion F as [|? ? F1 F2]; subst. split; [|discriminate].
      constructor; [|exact F2]. intros [->|I]; [discriminate E|exact (F1 I)].
Qed.

Lemma lines_line l : no_nl l -> lines l = [l].
Proof.
  induction l as [|c l IH]; intros N0; [reflexivity|]. cbn [lines].
  destruct (ceq c c_nl) eqn:E.
  - apply ceq_iff in E. subst c. exfalso. apply N0. left. reflexivity.
  - rewrite IH; [reflexivity|]. intros I. apply N0. right. exact I.
Qed.

Lemma lines_cons l s : no_nl l -> lines (l ++ c_nl :: s) = l :: lines s.
Proof.
  induction l as [|c l IH]; intros N0; [reflexivity|]. cbn [lines app].
  destruct (ceq c c_nl) eqn:E.
  - apply ceq_iff in E. subst c. exfalso. apply N0. left. reflexivity.
  - rewrite IH; [reflexivity|]. intros I. apply N0. right. exact I.
Qed.

Lemma lines_unlines ls : Forall no_nl ls -> ls <> [] -> lines (unlines ls) = ls.
Proof.
  induction 1 as [|l ls N0 F IH]; intros N1; [congruence|]. destruct ls as [|l' ls].
  - cbn. apply lines_line. exact N0.
  - change (unlines (l :: l' :: ls)) with (l ++ c_nl :: unlines (l' :: ls)). rewrite lines_cons by exact N0.
    rewrite IH by discriminate. reflexivity.
Qed.

Lemma sed_lines g r l t : (forall s, no_nl s -> no_nl (sed_line g r l s)) ->
  lines (sed g r l t) = map (sed_line g r l) (lines t).
Proof.
  intros H. unfold sed. destruct (lines_no_nl t) as [F N0]. apply lines_unlines.
  - rewrite Forall_forall in *. intros s I. apply in_map_iff in I. destruct I as (s' & <- & I). apply H, F, I.
  - destruct (lines t); [congruence|discriminate].
Qed.

Lemma version_no_nl v : version_text v -> no_nl v.
Proof. intros [_ H] I. rewrite forallb_forall in H. specialize (H _ I). discriminate H. Qed.

Lemma no_nl_app a b : no_nl (a ++ b) <-> no_nl a /\ no_nl b.
Proof.
  unfold no_nl. rewrite in_app_iff. tauto.
Qed.

Lemma no_nl_cons c b : no_nl (c :: b) <-> c <> c_nl /\ no_nl b.
Proof. unfold no_nl. cbn. tauto. Qed.

Ltac nn := unfold no_nl; intros I; repeat (destruct I as [I|I]; [discriminate I|]); destruct I.

Definition toml_line (v l : str) : str := sed_line false toml_regex (map Char (toml_text v)) l.

Lemma toml_line_managed v l : managed l -> toml_line v l = managed_line v.
Proof. intros M. unfold toml_line. rewrite (toml_managed _ _ M). unfold toml_text, managed_line, msg. reflexivity. Qed.

Lemma toml_line_other v l : ~ managed l -> toml_line v l = l.
Proof. apply toml_other. Qed.

Lemma toml_line_no_nl v l : version_text v -> no_nl l -> no_nl (toml_line v l).
Proof.
  intros V N0. destruct (managed_dec l) as [M|M].
  - rewrite (toml_line_managed v l M). unfold managed_line. rewrite !no_nl_app. split; [nn|]. split; [apply version_no_nl; exact V|nn].
  - rewrite (toml_line_other v l M). exact N0.
Qed.

Lemma json_line_no_nl v l : version_text v -> no_nl l -> no_nl (json_line v l).
Proof.
  intros V N0. destruct (version_cases l) as [(p & w & q & F)|N1].
  - rewrite (json_version v l p w q F). destruct F as ((-> & _) & _). unfold json_text.
    rewrite !no_nl_app, no_nl_cons in *. destruct N0 as (A & _ & _ & _ & B). repeat split; try assumption; try nn.
    apply version_no_nl. exact V.
  - rewrite (json_other v l N1). exact N0.
Qed.

Lemma dep_line_no_nl v l : version_text v -> no_nl l -> no_nl (dep_line v l).
Proof.
  intros V N0. destruct (dependency_cases l) as [(p & g & w & q & F)|N1].
  - rewrite (dep_dependency v l p g w q F). destruct F as ((-> & _) & _).
    rewrite !no_nl_app, !no_nl_cons in *. destruct N0 as (A & _ & B & _ & _ & _ & C). repeat split; try assumption; try discriminate; try nn.
    apply version_no_nl. exact V.
  - rewrite (dep_other v l N1). exact N0.
Qed.

Lemma sed_toml v t : version_text v ->
  lines (sed false toml_regex (map Char (toml_text v)) t) = map (toml_line v) (lines t).
Proof. intros V. apply sed_lines. intros s. apply toml_line_no_nl. exact V. Qed.

Lemma sed_package v t : version_text v ->
  lines (sed true dep_regex (dep_parts v) (sed false json_regex (map Char (json_text v)) t)) =
  map (package_line v) (lines t).
Proof.
  intros V. rewrite sed_lines by (intros s; apply dep_line_no_nl; exact V).
  rewrite sed_lines by (intros s; apply json_line_no_nl; exact V). rewrite map_map. reflexivity.
Qed.

(** ** What a release changes *)
Lemma toml_line_change v l : toml_change v l (toml_line v l).
Proof.
  destruct (managed_dec l) as [M|M]; [left|right]; split; try exact M.
  - apply toml_line_managed. exact M.
  - apply toml_line_other. exact M.
Qed.

Lemma package_line_change v l : version_text v -> package_change v l (package_line v l).
Proof.
  intros V. unfold package_line. destruct (version_cases l) as [(p & w & q & F)|N0].
  - left. exists p, w, q. split; [exact F|].
    rewrite (json_version v l p w q F), (dep_keeps_version l p w q v F V). unfold json_text.
    rewrite <- !app_assoc. reflexivity.
  - right. split; [exact N0|]. rewrite (json_other v l N0).
    destruct (dependency_cases l) as [(p & g & w & q & F)|N1].
    + left. exists p, g, w, q. split; [exact F|]. apply (dep_dependency v l p g w q F).
    + right. split; [exact N1|]. apply dep_other. exact N1.
Qed.

Lemma Forall2_map {A} (P : A -> A -> Prop) (f : A -> A) l : (forall a, P a (f a)) -> Forall2 P l (map f l).
Proof. intros H. induction l; constructor; auto. Qed.

Lemma strip_tag v : strip_v (tag_of v) = v.
Proof. reflexivity. Qed.

Definition edited (v : str) (f : files) : files :=
  {| smd_toml := sed false toml_regex (map Char (toml_text v)) (smd_toml f);
     core_toml := sed false toml_regex (map Char (toml_text v)) (core_toml f);
     gfm_toml := sed false toml_regex (map Char (toml_text v)) (gfm_toml f);
     package_json := sed true dep_regex (dep_parts v) (sed false json_regex (map Char (json_text v)) (package_json f)) |}.

Lemma edit_eq v f : version_text v -> edit (tag_of v) f = Some (edited v f).
Proof.
  intros [_ V]. apply version_plain in V. unfold edit. rewrite strip_tag, toml_parts, json_parts, dep_parts_eq by exact V.
  reflexivity.
Qed.

Lemma release_exact v f : version_text v -> exists f', edit (tag_of v) f = Some f' /\
  Forall2 (toml_change v) (lines (smd_toml f)) (lines (smd_toml f')) /\
  Forall2 (toml_change v) (lines (core_toml f)) (lines (core_toml f')) /\
  Forall2 (toml_change v) (lines (gfm_toml f)) (lines (gfm_toml f')) /\
  Forall2 (package_change v) (lines (package_json f)) (lines (package_json f')).
Proof.
  intros V. exists (edited v f). split; [apply edit_eq; exact V|]. cbn [edited smd_toml core_toml gfm_toml package_json].
  rewrite !sed_toml, sed_package by exact V.
  repeat split; apply Forall2_map; intros l; try apply toml_line_change. apply package_line_change. exact V.
Qed.

(** ** A release after a release *)
Lemma unlines_lines s : unlines (lines s) = s.
Proof.
  induction s as [|c s IH]; [reflexivity|]. cbn [lines]. destruct (lines_no_nl s) as [_ N0].
  destruct (ceq c c_nl) eqn:E.
  - apply ceq_iff in E. subst c. destruct (lines s) as [|l ls]; [congruence|].
    change (unlines ([] :: l :: ls)) with (c_nl :: unlines (l :: ls)). rewrite IH. reflexivity.
  - destruct (lines s) as [|l ls]; [congruence|]. destruct ls as [|l' ls]; cbn in IH |- *; rewrite <- IH; reflexivity.
Qed.

Lemma lines_inj a b : lines a = lines b -> a = b.
Proof. intros E. rewrite <- (unlines_lines a), <- (unlines_lines b), E. reflexivity. Qed.

Lemma managed_line_managed v : managed (managed_line v).
Proof.
  exists (c_quote :: v ++ [c_quote]), c_dot. unfold managed_line.
  change (lit "version = """) with (lit "version = " ++ [c_quote]). rewrite <- !app_assoc. cbn [app].
  rewrite <- !app_assoc. reflexivity.
Qed.

Lemma toml_again x y l : toml_line y (toml_line x l) = toml_line y l.
Proof.
  destruct (managed_dec l) as [M|M].
  - rewrite (toml_line_managed x l M), (toml_line_managed y l M). apply toml_line_managed. apply managed_line_managed.
  - rewrite (toml_line_other x l M). reflexivity.
Qed.

Lemma release_again x y f f' : version_text x -> version_text y ->
  edit (tag_of x) f = Some f' -> edit (tag_of y) f' = edit (tag_of y) f.
Proof.
  intros X Y E. rewrite (edit_eq x f X) in E. injection E as <-. rewrite !edit_eq by exact Y. f_equal.
  unfold edited. cbn [smd_toml core_toml gfm_toml package_json].
  f_equal; apply lines_inj; rewrite ?sed_toml, ?sed_package by assumption; rewrite ?sed_toml, ?sed_package by assumption;
    rewrite map_map; apply map_ext; intros l; try apply toml_again. apply package_again; assumption.
Qed.

(** ** Versions *)
Lemma managed_not_header l : managed l -> starts_with [c_lbrk] l = false /\ starts_with (lit "version = ") l = true.
Proof. intros (y & d & ->). split; reflexivity. Qed.

Lemma version_line_map v h ls : forall b,
  version_line b h (map (toml_line v) ls) = option_map (toml_line v) (version_line b h ls).
Proof.
  induction ls as [|l ls IH]; intros b; [reflexivity|]. cbn [map version_line].
  destruct (managed_dec l) as [M|M].
  - rewrite (toml_line_managed v l M). destruct (managed_not_header l M) as [-> ->].
    destruct (managed_not_header _ (managed_line_managed v)) as [-> ->].
    destruct b; cbn [andb]; [|apply IH]. cbn [option_map]. rewrite (toml_line_managed v l M). reflexivity.
  - rewrite (toml_line_other v l M). destruct (starts_with [c_lbrk] l); [apply IH|].
    destruct (b && starts_with (lit "version = ") l); [|apply IH]. cbn [option_map].
    rewrite (toml_line_other v l M). reflexivity.
Qed.

Lemma split_once_quote a b : no_quote a -> split_once c_quot (a ++ c_quote :: b) = Some (a, b).
Proof.
  induction a as [|c a IH]; intros N0; [reflexivity|]. cbn [app split_once].
  destruct (ceq c c_quot) eqn:E.
  - apply ceq_iff in E. subst c. exfalso. apply N0. left. reflexivity.
  - rewrite IH; [reflexivity|]. intros I. apply N0. right. exact I.
Qed.

Lemma quoted_managed v : version_text v -> quoted (managed_line v) = Some v.
Proof.
  intros V. unfold quoted, managed_line.
  change (lit "version = """ ++ v ++ lit """ # managed by release.sh") with
    (lit "version = " ++ c_quote :: (v ++ c_quote :: lit " # managed by release.sh")).
  rewrite split_once_quote by (intros I; repeat (destruct I as [I|I]; [discriminate I|]); destruct I).
  rewrite split_once_quote by (apply version_no_quote; exact V). reflexivity.
Qed.

Lemma version_managed v h t l : version_text v -> version_line false h (lines t) = Some l -> managed l ->
  version_of h (sed false toml_regex (map Char (toml_text v)) t) = read_version v.
Proof.
  intros V E M. unfold version_of. rewrite sed_toml, version_line_map, E by exact V. cbn [option_map].
  rewrite (toml_line_managed v l M), quoted_managed by exact V. reflexivity.
Qed.

Lemma version_unmanaged v h t l : version_text v -> version_line false h (lines t) = Some l -> ~ managed l ->
  version_of h (sed false toml_regex (map Char (toml_text v)) t) = version_of h t.
Proof.
  intros V E M. unfold version_of. rewrite sed_toml, version_line_map, E by exact V. cbn [option_map].
  rewrite (toml_line_other v l M). reflexivity.
Qed.

Lemma req_not_below r v : matches_req r v = true -> version_compare v r <> Lt.
Proof.
  unfold matches_req. intros H. apply andb_true_iff in H. destruct H as [H _]. revert H.
  unfold matches_caret, version_compare.
  destruct (Nat.eqb (major v) (major r)) eqn:E1; cbn [negb]; [|discriminate].
  apply Nat.eqb_eq in E1. rewrite E1, Nat.compare_refl.
  destruct (Nat.compare_spec (minor v) (minor r)) as [E2|E2|E2];
    destruct (Nat.compare_spec (patch v) (patch r)) as [E3|E3|E3];
    destruct (Nat.ltb 0 (major r)); destruct (Nat.ltb 0 (minor r));
    repeat match goal with
    | |- context [Nat.eqb ?a ?b] => destruct (Nat.eqb_spec a b); [try lia|try lia]
    | |- context [Nat.ltb ?a ?b] => destruct (Nat.ltb_spec a b); [try lia|try lia]
    end; cbn [negb andb]; try discriminate; try (intros _; discriminate);
    try (destruct (pre_compare (pre v) (pre r)); discriminate).
Qed.

(** ** The order of versions *)
Lemma numeric_digits x : numeric x = true <-> digits x.
Proof.
  unfold numeric, digits. rewrite forallb_forall. unfold is_digit. split; intros F c I; apply F in I.
  - apply andb_true_iff in I as [I1 I2]. apply N.leb_le in I1. apply N.leb_le in I2. lia.
  - apply andb_true_iff. split; apply N.leb_le; lia.
Qed.
Lemma not_numeric x : numeric x = false <-> ~ digits x.
Proof. rewrite <- numeric_digits. destruct (numeric x); intuition discriminate. Qed.

Lemma str_compare_spec a : forall b,
  match str_compare a b with Lt => lex eq N.lt a b | Eq => a = b | Gt => lex eq N.lt b a end.
Proof.
  induction a as [|x a IH]; intros [|y b]; cbn [str_compare]; try constructor.
  destruct (N.compare_spec x y) as [->|L|L]; [|now constructor..].
  specialize (IH b). destruct (str_compare a b); [now subst|now apply lex_next..].
Qed.
Lemma str_lex_lt a b : lex eq N.lt a b -> str_compare a b = Lt /\ str_compare b a = Gt.
Proof.
  induction 1 as [y b|x y a b L|x y a b <- _ IH]; cbn [str_compare]; [auto| |].
  - rewrite (proj2 (N.compare_lt_iff _ _) L), (proj2 (N.compare_gt_iff _ _) L). auto.
  - now rewrite N.compare_refl.
Qed.
Lemma id_compare_spec x y :
  match id_compare x y with Lt => id_before x y | Eq => id_same x y | Gt => id_before y x end.
Proof.
  unfold id_compare, id_before, id_same.
  destruct (numeric x) eqn:X; destruct (numeric y) eqn:Y;
    rewrite ?numeric_digits, ?not_numeric in *; auto.
  - destruct (Nat.compare_spec (number x) (number y)); auto.
  - pose proof (str_compare_spec x y) as H. destruct (str_compare x y); auto.
Qed.
Lemma id_before_lt x y : id_before x y -> id_compare x y = Lt /\ id_compare y x = Gt.
Proof.
  unfold id_compare. intros [(X & Y & L)|[(X & Y)|(X & Y & L)]];
    repeat match goal with H : ~ digits _ |- _ => apply not_numeric in H | H : digits _ |- _ => apply numeric_digits in H end;
    rewrite X, Y; auto.
  - now rewrite (proj2 (Nat.compare_lt_iff _ _) L), (proj2 (Nat.compare_gt_iff _ _) L).
  - now apply str_lex_lt.
Qed.
Lemma id_same_eq x y : id_same x y -> id_compare x y = Eq /\ id_compare y x = Eq.
Proof.
  unfold id_compare. intros [<-|(X & Y & E)].
  - destruct (numeric x).
    + rewrite Nat.compare_refl. auto.
    + pose proof (str_compare_spec x x) as H. destruct (str_compare x x) eqn:C; auto;
        apply str_lex_lt in H; rewrite C in H; destruct H; discriminate.
  - apply numeric_digits in X, Y. rewrite X, Y, E, Nat.compare_refl. auto.
Qed.
Lemma id_same_sym x y : id_same x y -> id_same y x.
Proof. unfold id_same. intuition. Qed.
Lemma ids_compare_spec a : forall b,
  match ids_compare a b with
  | Lt => lex id_same id_before a b | Gt => lex id_same id_before b a | Eq => True
  end.
Proof.
  induction a as [|x a IH]; intros [|y b]; cbn [ids_compare]; try constructor.
  pose proof (id_compare_spec x y) as H. destruct (id_compare x y); [|now constructor..].
  specialize (IH b). destruct (ids_compare a b); auto; apply lex_next; auto. now apply id_same_sym.
Qed.
Lemma ids_lex_lt a b : lex id_same id_before a b -> ids_compare a b = Lt /\ ids_compare b a = Gt.
Proof.
  induction 1 as [y b|x y a b L|x y a b E _ IH]; cbn [ids_compare]; [auto| |].
  - apply id_before_lt in L as [-> ->]. auto.
  - apply id_same_eq in E as [-> ->]. auto.
Qed.
Lemma pre_compare_lt a b : (pre_compare a b = Lt <-> pre_before a b) /\ (pre_compare a b = Gt <-> pre_before b a).
Proof.
  unfold pre_compare, pre_before. pose proof (ids_compare_spec a b) as H. pose proof (ids_lex_lt a b) as H1.
  pose proof (ids_lex_lt b a) as H2.
  destruct a as [|x a]; destruct b as [|y b].
  - intuition (try discriminate).
  - split; split; try discriminate; [intros [N _]; contradiction|intros _|auto]. split; [discriminate | auto].
  - split; split; try discriminate; [intros _|auto|intros [N _]; contradiction]. split; [discriminate | auto].
  - set (c := ids_compare (x :: a) (y :: b)) in *. split; split.
    + intros E. rewrite E in H. split; [discriminate | auto].
    + intros [_ [E|E]]; [discriminate|]. now apply H1.
    + intros E. rewrite E in H. split; [discriminate | auto].
    + intros [_ [E|E]]; [discriminate|]. now apply H2.
Qed.
Lemma version_order a b : (version_compare a b = Lt <-> precedes a b) /\ (version_compare a b = Gt <-> precedes b a).
Proof.
  unfold version_compare, precedes. pose proof (pre_compare_lt (pre a) (pre b)) as [P1 P2].
  destruct (Nat.compare_spec (major a) (major b)) as [E1|E1|E1];
    [destruct (Nat.compare_spec (minor a) (minor b)) as [E2|E2|E2];
      [destruct (Nat.compare_spec (patch a) (patch b)) as [E3|E3|E3]|..]|..].
  { rewrite P1, P2. split; (split; [intros H; right; split; [lia|]; right; split; [lia|]; right; split; [lia | exact H]
      | intros [H|[_ [H|[_ [H|[_ H]]]]]]; try lia; exact H]). }
  all: split; (split; intros H; [try discriminate H; repeat first [left; lia | right; split; [lia|]]
    | try reflexivity; exfalso; decompose [or and] H; lia]).
Qed.
Lemma requirement_iff r v : matches_req r v = true <->
  ~ precedes v r /\ compatible r v /\
  (pre v <> [] -> pre r <> [] /\ major v = major r /\ minor v = minor r /\ patch v = patch r).
Proof.
  rewrite <- (proj1 (version_order v r)). unfold matches_req, compatible. rewrite andb_true_iff, orb_true_iff, !andb_true_iff.
  rewrite !Nat.eqb_eq.
  assert (C : matches_caret r v = true <-> version_compare v r <> Lt /\
    (major v = major r /\ (major r = 0 -> minor v = minor r /\ (minor r = 0 -> patch v = patch r)))).
  { unfold matches_caret, version_compare.
    destruct (Nat.compare_spec (major v) (major r)) as [E1|E1|E1].
    2,3: (replace (Nat.eqb (major v) (major r)) with false by (symmetry; apply Nat.eqb_neq; lia); cbn [negb]; split; [discriminate | lia]).
    rewrite E1, Nat.eqb_refl. cbn [negb].
    destruct (Nat.compare_spec (minor v) (minor r)) as [E2|E2|E2];
    destruct (Nat.compare_spec (patch v) (patch r)) as [E3|E3|E3];
    destruct (Nat.ltb_spec 0 (major r)); destruct (Nat.ltb_spec 0 (minor r));
    repeat match goal with
    | |- context [Nat.eqb ?a ?b] => destruct (Nat.eqb_spec a b); [try lia|try lia]
    | |- context [Nat.ltb ?a ?b] => destruct (Nat.ltb_spec a b); [try lia|try lia]
    end; cbn [negb andb];
    try (destruct (pre_compare (pre v) (pre r)));
    (split; [intros Q; first [discriminate Q | split; [discriminate|lia]] | intros [Q1 Q2]; first [reflexivity | exfalso; first [now apply Q1 | lia]]]). }
  rewrite C. split.
  - intros [[H1 H2] H3]. split; [auto|]. split; [auto|]. intros N. destruct H3 as [H3|[[[A1 A2] A3] H3]].
    + destruct (pre v); [contradiction | discriminate].
    + split; [intros E; rewrite E in H3; discriminate|]. auto.
  - intros (H1 & H2 & H3). split; [auto|]. destruct (pre v) as [|p l]; [now left | right].
    destruct H3 as (A0 & A1 & A2 & A3); [discriminate|]. repeat split; auto. destruct (pre r); [contradiction | reflexivity].
Qed.

Lemma str_compare_refl s : str_compare s s = Eq.
Proof. induction s as [|c s IH]; [reflexivity|]. cbn. rewrite N.compare_refl. exact IH. Qed.

Lemma ids_compare_refl l : ids_compare l l = Eq.
Proof.
  induction l as [|s l IH]; [reflexivity|]. cbn [ids_compare].
  assert (id_compare s s = Eq) as ->.
  { unfold id_compare. destruct (numeric s); [apply Nat.compare_refl|apply str_compare_refl]. }
  exact IH.
Qed.

Lemma req_refl v : matches_req v v = true.
Proof.
  unfold matches_req, matches_caret. rewrite !Nat.eqb_refl. cbn [negb andb].
  assert (pre_compare (pre v) (pre v) = Eq) as ->.
  { destruct (pre v) as [|a l] eqn:E; [reflexivity|]. unfold pre_compare. apply ids_compare_refl. }
  destruct (pre v); destruct (Nat.ltb 0 (major v)); destruct (Nat.ltb 0 (minor v)); reflexivity.
Qed.

(** A crate whose version is not managed keeps it, and cargo refuses what depends on it. *)
Lemma stale_crate v x y f f' h t ls lc : version_text v -> read_version v = Some x ->
  edit (tag_of v) f = Some f' ->
  In (h, t) [(lit "[dependencies.smd-core]", core_toml); (lit "[dependencies.gfm]", gfm_toml)] ->
  version_line false h (lines (smd_toml f)) = Some ls -> managed ls ->
  version_line false (lit "[package]") (lines (t f)) = Some lc -> ~ managed lc ->
  version_of (lit "[package]") (t f) = Some y -> version_compare y x = Lt ->
  version_of (lit "[package]") (t f') = Some y /\ resolves f' = false.
Proof.
  intros V R E I Ls Ms Lc Mc Y C. rewrite (edit_eq v f V) in E. injection E as <-.
  assert (D : forall t0, version_line false (lit "[package]") (lines t0) = Some lc ->
              version_of (lit "[package]") t0 = Some y ->
              version_of (lit "[package]") (sed false toml_regex (map Char (toml_text v)) t0) = Some y /\
              dependency_ok h (sed false toml_regex (map Char (toml_text v)) (smd_toml f))
                (sed false toml_regex (map Char (toml_text v)) t0) = false).
  { intros t0 L0 Y0. rewrite (version_unmanaged v _ _ _ V L0 Mc). split; [exact Y0|].
    unfold dependency_ok. rewrite (version_managed v _ _ _ V Ls Ms), R, (version_unmanaged v _ _ _ V L0 Mc), Y0.
    destruct (matches_req x y) eqn:M; [|reflexivity]. exfalso. exact (req_not_below _ _ M C). }
  unfold resolves. cbn [edited smd_toml core_toml gfm_toml].
  destruct I as [I|[I|[]]]; pose proof (f_equal fst I) as I1; pose proof (f_equal snd I) as I2;
    cbn [fst snd] in I1, I2; subst h t; cbn [edited core_toml gfm_toml];
    destruct (D _ Lc Y) as [D1 D2]; rewrite D2; (split; [exact D1|]); [reflexivity|apply andb_false_r].
Qed.

(** If all four lines are managed, it works. *)
Lemma managed_release v x f l1 l2 l3 l4 : version_text v -> read_version v = Some x ->
  version_line false (lit "[dependencies.smd-core]") (lines (smd_toml f)) = Some l1 -> managed l1 ->
  version_line false (lit "[dependencies.gfm]") (lines (smd_toml f)) = Some l2 -> managed l2 ->
  version_line false (lit "[package]") (lines (core_toml f)) = Some l3 -> managed l3 ->
  version_line false (lit "[package]") (lines (gfm_toml f)) = Some l4 -> managed l4 ->
  exists f', edit (tag_of v) f = Some f' /\ resolves f' = true.
Proof.
  intros V R L1 M1 L2 M2 L3 M3 L4 M4. exists (edited v f). split; [apply edit_eq; exact V|].
  unfold resolves, dependency_ok. cbn [edited smd_toml core_toml gfm_toml].
  rewrite (version_managed v _ _ _ V L1 M1), (version_managed v _ _ _ V L2 M2),
    (version_managed v _ _ _ V L3 M3), (version_managed v _ _ _ V L4 M4), R, req_refl. reflexivity.
Qed.

(** ** Versions can be released *)
Fixpoint joined (d : char) (l : list str) : str :=
  match l with
  | [] => []
  | [a] => a
  | a :: l' => a ++ d :: joined d l'
  end.

Lemma joined_split_go d s : forall acc, joined d (split_go [d] 0 acc s) = rev acc ++ s.
Proof.
  induction s as [|c s IH]; intros acc; cbn [split_go].
  - cbn. rewrite app_nil_r. reflexivity.
  - cbn [starts_with length Nat.sub].
    destruct (ceq d c) eqn:E; cbn [andb].
    + apply ceq_iff in E. subst c. specialize (IH []). pose proof (split_go_nonempty [d] 0 [] s) as N0.
      destruct (split_go [d] 0 [] s) as [|a l]; [congruence|].
      change (joined d (rev acc :: a :: l)) with (rev acc ++ d :: joined d (a :: l)). rewrite IH. reflexivity.
    + rewrite IH. cbn [rev]. rewrite <- app_assoc. reflexivity.
Qed.

Lemma joined_split d s : joined d (split [d] s) = s.
Proof. unfold split. rewrite joined_split_go. reflexivity. Qed.

Definition all_version (s : str) : Prop := forallb version_char s = true.

Lemma all_version_joined l : Forall all_version l -> all_version (joined c_dot l).
Proof.
  unfold all_version. induction 1 as [|a l A F IH]; [reflexivity|]. destruct l as [|b l]; [exact A|].
  change (joined c_dot (a :: b :: l)) with (a ++ c_dot :: joined c_dot (b :: l)).
  rewrite forallb_app, A. cbn [forallb]. rewrite IH. reflexivity.
Qed.

Lemma id_all_version s : id_chars s = true -> all_version s.
Proof.
  unfold id_chars. intros H. apply andb_true_iff in H. destruct H as [_ H]. unfold all_version.
  rewrite forallb_forall in *. intros c I. specialize (H c I). unfold version_char. unfold is_digit, is_upper in H.
  apply orb_true_iff in H. destruct H as [H|H]; [rewrite H; reflexivity|]. apply ceq_iff in H. subst c. reflexivity.
Qed.

Lemma ids_all_version l : forallb id_chars l = true -> all_version (joined c_dot l).
Proof.
  intros H. apply all_version_joined. rewrite forallb_forall in H. apply Forall_forall. intros s I. apply id_all_version, H, I.
Qed.

Lemma number_all_version s n : number_of s = Some n -> all_version s /\ ~ In c_dot s.
Proof.
  unfold number_of. destruct s as [|c s]; [discriminate|].
  destruct (numeric (c :: s)) eqn:E; [|discriminate]. intros _. clear n. revert E. generalize (c :: s) as t. clear.
  unfold numeric, all_version. intros t E. rewrite forallb_forall in *. split.
  - intros d I. specialize (E d I). unfold version_char. unfold is_digit in E. rewrite E. reflexivity.
  - intros I. specialize (E _ I). discriminate E.
Qed.

Lemma glob_star p a s : (forall c, In c a -> c <> 47%N) -> glob p s = true -> glob (Dots :: p) (a ++ s) = true.
Proof.
  intros Na G. induction a as [|c a IH].
  - cbn [app]. destruct s as [|x s].
    + change (glob (Dots :: p) []) with (glob p [] || false). rewrite G. reflexivity.
    + change (glob (Dots :: p) (x :: s)) with (glob p (x :: s) || (negb (N.eqb x 47) && glob (Dots :: p) s)). rewrite G. reflexivity.
  - cbn [app]. change (glob (Dots :: p) (c :: a ++ s)) with (glob p (c :: a ++ s) || (negb (N.eqb c 47) && glob (Dots :: p) (a ++ s))).
    rewrite IH by (intros d I; apply Na; right; exact I). destruct (N.eqb_spec c 47) as [->|]; [|apply orb_true_r].
    exfalso. apply (Na 47%N); [left|]; reflexivity.
Qed.

Lemma all_version_slash s : all_version s -> forall c, In c s -> c <> 47%N.
Proof. unfold all_version. rewrite forallb_forall. intros H c I ->. specialize (H _ I). discriminate H. Qed.

Lemma version_released v x : read_version v = Some x -> version_text v /\ trigger (tag_of v) = true.
Proof.
  unfold read_version.
  destruct (match split_once c_plus v with
            | Some (a, b) => (a, forallb id_chars (split [c_dot] b))
            | None => (v, true) end) as [s1 bok] eqn:E1.
  destruct (match split_once c_minus s1 with
            | Some (a, b) => (a, Some (split [c_dot] b))
            | None => (s1, None) end) as [s2 p] eqn:E2.
  destruct (split [c_dot] s2) as [|a [|b [|c [|]]]] eqn:E3; try discriminate.
  destruct (number_of a) as [na|] eqn:Na; [|discriminate].
  destruct (number_of b) as [nb|] eqn:Nb; [|discriminate].
  destruct (number_of c) as [nc|] eqn:Nc; [|discriminate].
  destruct (bok && forallb pre_id _) eqn:B; [|discriminate]. intros _.
  apply andb_true_iff in B. destruct B as [B P].
  assert (S2 : s2 = a ++ c_dot :: b ++ c_dot :: c).
  { rewrite <- (joined_split c_dot s2), E3. reflexivity. }
  apply number_all_version in Na, Nb, Nc. destruct Na as [Va _], Nb as [Vb _], Nc as [Vc _].
  assert (R1 : exists r1, s1 = s2 ++ r1 /\ all_version r1).
  { destruct (split_once c_minus s1) as [[a1 b1]|] eqn:Em; injection E2 as E2 Ep.
    - subst a1. apply split_once_some in Em. destruct Em as [-> _]. exists (c_minus :: b1). split; [reflexivity|].
      subst p. assert (all_version b1) as A.
      { rewrite <- (joined_split c_dot b1). apply ids_all_version. rewrite forallb_forall in *. intros z I.
        specialize (P z I). unfold pre_id in P. apply andb_true_iff in P. apply P. }
      unfold all_version in *. cbn [forallb]. rewrite A. reflexivity.
    - exists []. rewrite app_nil_r. split; [exact E2|reflexivity]. }
  assert (R2 : exists r2, v = s1 ++ r2 /\ all_version r2).
  { destruct (split_once c_plus v) as [[a1 b1]|] eqn:Em; injection E1 as E1 Ep.
    - subst a1. apply split_once_some in Em. destruct Em as [-> _]. exists (c_plus :: b1). split; [reflexivity|].
      subst bok. assert (all_version b1) as A.
      { rewrite <- (joined_split c_dot b1). apply ids_all_version. exact B. }
      unfold all_version in *. cbn [forallb]. rewrite A. reflexivity.
    - exists []. rewrite app_nil_r. split; [exact E1|reflexivity]. }
  destruct R1 as (r1 & -> & V1), R2 as (r2 & -> & V2). subst s2.
  assert (V3 : all_version ((c ++ r1) ++ r2)).
  { unfold all_version in *. rewrite !forallb_app, Vc, V1, V2. reflexivity. }
  assert (E : ((a ++ c_dot :: b ++ c_dot :: c) ++ r1) ++ r2 = a ++ c_dot :: b ++ c_dot :: ((c ++ r1) ++ r2)).
  { rewrite <- !app_assoc. cbn [app]. rewrite <- !app_assoc. reflexivity. }
  rewrite E. split.
  - split; [destruct a; discriminate|]. unfold all_version in *. rewrite forallb_app, Va. cbn [forallb].
    rewrite forallb_app, Vb. cbn [forallb]. rewrite V3. reflexivity.
  - unfold trigger, tag_of.
    change (glob (Lit 118%N :: ?p) (118%N :: ?s)) with (glob p s).
    cbv beta. apply glob_star; [apply all_version_slash; exact Va|].
    change (glob (Lit c_dot :: [Dots; Lit c_dot; Dots]) (c_dot :: b ++ c_dot :: ((c ++ r1) ++ r2)) = true).
    change (glob [Dots; Lit c_dot; Dots] (b ++ c_dot :: ((c ++ r1) ++ r2)) = true).
    apply glob_star; [apply all_version_slash; exact Vb|].
    change (glob [Dots] ((c ++ r1) ++ r2) = true).
    rewrite <- (app_nil_r ((c ++ r1) ++ r2)). apply glob_star; [apply all_version_slash; exact V3|reflexivity].
Qed.

(** ** The workflow *)
Lemma trigger_v tag : trigger tag = true -> exists v, tag = tag_of v.
Proof.
  unfold trigger. destruct tag as [|c tag]; [discriminate|].
  change (glob (Lit 118%N :: [Dots; Lit c_dot; Dots; Lit c_dot; Dots]) (c :: tag)) with
    (ceq c 118%N && glob [Dots; Lit c_dot; Dots; Lit c_dot; Dots] tag).
  intros H. apply andb_true_iff in H. destruct H as [H _]. apply ceq_iff in H. subst c. exists tag. reflexivity.
Qed.

Lemma same_version tag : trigger tag = true -> strip_v tag = release_version tag.
Proof. intros H. apply trigger_v in H. destruct H as [v ->]. reflexivity. Qed.

Lemma release_version_of v : release_version (tag_of v) = v.
Proof. reflexivity. Qed.

Section Flow.
Variable tree : str -> bool.
Variable ext : build -> step -> bool.
Variable changelog_ok : bool.

Lemma run_cut b s1 s2 : succeeds tree ext b PrepareAssets = false ->
  snd (run_steps tree ext b (s1 ++ PrepareAssets :: s2)) = false /\
  forall s, In s (fst (run_steps tree ext b (s1 ++ PrepareAssets :: s2))) -> In s s1 \/ s = PrepareAssets.
Proof.
  intros F. induction s1 as [|x s1 [IH1 IH2]]; cbn [app run_steps].
  - rewrite F. split; [reflexivity|]. intros s [<-|[]]. right. reflexivity.
  - destruct (succeeds tree ext b x).
    + destruct (run_steps tree ext b (s1 ++ PrepareAssets :: s2)) as [l ok]. cbn [fst snd] in *.
      split; [exact IH1|]. intros s [<-|I]; [left; left; reflexivity|].
      destruct (IH2 s I) as [J|J]; [left; right; exact J|right; exact J].
    + split; [reflexivity|]. intros s [<-|[]]. left. left. reflexivity.
Qed.

Lemma prepare_fails b : In false (map tree copied) -> succeeds tree ext b PrepareAssets = false.
Proof.
  intros I. cbn [succeeds]. apply in_map_iff in I. destruct I as (f & E & I).
  assert (forallb tree copied = false) as ->; [|reflexivity].
  destruct (forallb tree copied) eqn:F; [|reflexivity]. rewrite forallb_forall in F. rewrite (F f I) in E. discriminate E.
Qed.

Lemma leg_shape tag b : exists s1 s2, filter (applies b tag) binaries_steps = s1 ++ PrepareAssets :: s2 /\
  forall s, In s s1 -> In s [Checkout; SetVersion; InstallDependencies; InstallRust; BuildUnix; BuildWindows].
Proof.
  exists (filter (applies b tag) [Checkout; SetVersion; InstallDependencies; InstallRust; BuildUnix; BuildWindows]).
  exists (filter (applies b tag) [CreateArtifacts; SignRelease; ToGitHub; ToGitHubPre;
   InstallNode; ToNpm; WheelsLinux; WheelsOthers; WheelsMusl; UploadWheels]). split.
  - change binaries_steps with ([Checkout; SetVersion; InstallDependencies; InstallRust; BuildUnix; BuildWindows] ++
      [PrepareAssets] ++ [CreateArtifacts; SignRelease; ToGitHub; ToGitHubPre;
       InstallNode; ToNpm; WheelsLinux; WheelsOthers; WheelsMusl; UploadWheels]).
    rewrite !filter_app. reflexivity.
  - intros s I. apply filter_In in I. apply I.
Qed.

Lemma nothing_published : In false (map tree copied) -> forall tag,
  (forall b s, publishing s -> ~ started tree ext changelog_ok tag b s) /\
  base_packages_start tree ext changelog_ok tag = false.
Proof.
  intros I tag. split.
  - intros b s P (_ & _ & _ & H). unfold leg in H. destruct (leg_shape tag b) as (s1 & s2 & E & H1). rewrite E in H.
    destruct (run_cut b s1 s2 (prepare_fails b I)) as [_ R]. destruct (R s H) as [J|J].
    + apply H1 in J. unfold publishing in P. cbn in P, J.
      repeat (destruct J as [J|J]; [subst s; repeat (destruct P as [P|P]; [discriminate P|]); destruct P|]). destruct J.
    + subst s. unfold publishing in P. cbn in P. repeat (destruct P as [P|P]; [discriminate P|]). destruct P.
  - unfold base_packages_start. cbn [matrix forallb].
    assert (H : forall b, snd (leg tree ext tag b) = false).
    { intros b. unfold leg. destruct (leg_shape tag b) as (s1 & s2 & E & _). rewrite E.
      apply (run_cut b s1 s2 (prepare_fails b I)). }
    rewrite H. rewrite andb_false_r. reflexivity.
Qed.

Lemma run_all b ss : (forall s, In s ss -> succeeds tree ext b s = true) -> run_steps tree ext b ss = (ss, true).
Proof.
  induction ss as [|s ss IH]; intros H; [reflexivity|]. cbn [run_steps]. rewrite (H s (or_introl eq_refl)), IH.
  - reflexivity.
  - intros s' I. apply H. right. exact I.
Qed.

Lemma all_published : forallb tree copied = true -> (forall b s, ext b s = true) -> changelog_ok = true ->
  forall tag, trigger tag = true ->
  (forall b s, In b matrix -> applies b tag s = true -> started tree ext changelog_ok tag b s) /\
  base_packages_start tree ext changelog_ok tag = true.
Proof.
  intros T X C tag G.
  assert (H : forall b, leg tree ext tag b = (filter (applies b tag) binaries_steps, true)).
  { intros b. unfold leg. apply run_all. intros s _. destruct s; cbn [succeeds]; rewrite ?T, X; reflexivity. }
  split.
  - intros b s Ib A. repeat split; try assumption. rewrite H. cbn [fst]. apply filter_In. split; [|exact A].
    destruct s; cbn; tauto.
  - unfold base_packages_start. rewrite G, C. cbn [andb]. apply forallb_forall. intros b _. rewrite H. reflexivity.
Qed.
End Flow.

(** *** Package names *)
Lemma node_packages : Permutation (map node_pkg (filter npm_publish matrix)) optional_dependencies.
Proof.
  change (map node_pkg (filter npm_publish matrix)) with
    [lit "smd-linux-x64"; lit "smd-linux-arm64"; lit "smd-windows-x64"; lit "smd-windows-arm64"; lit "smd-darwin-x64"; lit "smd-darwin-arm64"].
  change optional_dependencies with
    [lit "smd-darwin-arm64"; lit "smd-darwin-x64"; lit "smd-linux-arm64"; lit "smd-linux-x64"; lit "smd-windows-arm64"; lit "smd-windows-x64"].
  apply NoDup_Permutation.
  - repeat constructor; intros I; repeat (destruct I as [I|I]; [discriminate I|]); destruct I.
  - repeat constructor; intros I; repeat (destruct I as [I|I]; [discriminate I|]); destruct I.
  - intros s. cbn [In]. tauto.
Qed.

(** *** The Debian package *)
Lemma deb_same v : deb_uploaded (tag_of v) = deb_built (tag_of v) <-> ~ In c_minus v.
Proof.
  unfold deb_uploaded, deb_built, pre_release, ref, tag_of. 
  assert (C : contains [c_minus] (lit "refs/tags/" ++ 118%N :: v) = true <-> In c_minus v).
  { change (contains [c_minus] (lit "refs/tags/" ++ 118%N :: v)) with (contains [c_minus] v).
    induction v as [|c v IH]; [split; [discriminate|intros []]|]. cbn [contains starts_with].
    destruct (ceq c_minus c) eqn:E; cbn [andb orb].
    - split; [intros _|reflexivity]. apply ceq_iff in E. left. symmetry. exact E.
    - rewrite IH. split; [intros I; right; exact I|]. intros [I|I]; [|exact I]. subst c. discriminate E. }
  destruct (contains [c_minus] (lit "refs/tags/" ++ 118%N :: v)).
  - split.
    + intros H. exfalso. discriminate H.
    + intros H. exfalso. apply H, C. reflexivity.
  - split; [intros _ I|reflexivity]. apply C in I. discriminate I.
Qed.

(** *** Waiting for crates.io *)
Lemma not_there index n path : laid_out index -> path = lit "gi/t-/smd-core" \/ path = lit "gi/t-/gfm" -> index n path = None.
Proof.
  intros L P. destruct (index n path) as [t|] eqn:E; [|reflexivity]. exfalso. apply L in E. destruct E as [crate Ec].
  destruct P as [->| ->]; destruct crate as [|a [|b [|c [|d r]]]]; cbn in Ec; try discriminate Ec;
    congruence.
Qed.

Lemma grep_404 v : grep (vers_regex v) (answer None) = false.
Proof.
  unfold grep, answer. change (lines (lit "404: Not Found")) with [lit "404: Not Found"]. cbn [existsb].
  destruct (search (vers_regex v) (lit "404: Not Found")) as [[p m]|] eqn:E; [|reflexivity]. exfalso.
  apply search_some in E. destruct E as [(s' & Es & (a & c & W & E & Ma & _) & _) _].
  cbn [before vers_regex] in Ma. apply mt_app in Ma. destruct Ma as (a1 & r1 & -> & M1 & _). apply mt_chars in M1. subst a1.
  assert (I : In c_quote (lit "404: Not Found")).
  { rewrite Es, E, W. apply in_app_iff. right. left. reflexivity. }
  repeat (destruct I as [I|I]; [discriminate I|]). destruct I.
Qed.

Lemma wait_never index file v : (forall n, index n file = None) -> forall fuel n, wait fuel index file v n = None.
Proof.
  intros H. induction fuel as [|fuel IH]; intros n; [reflexivity|]. cbn [wait]. rewrite H, grep_404. apply IH.
Qed.

Lemma crates_wait_never index tag fuel : laid_out index -> crates_wait fuel index tag = None.
Proof.
  intros L. unfold crates_wait. rewrite wait_never; [reflexivity|]. intros n. apply not_there; [exact L|left; reflexivity].
Qed.

(** ** What goes wrong with a line *)
Lemma first_of_line p w r1 r2 : no_quote p -> w <> [] -> no_quote r2 ->
  first_version (p ++ lit """version"": """ ++ w ++ c_quote :: r1 ++ c_quote :: r2) p (w ++ c_quote :: r1) r2.
Proof.
  intros Np Nw Nr. split; [|split].
  - split; [|destruct w; discriminate]. rewrite <- !app_assoc. reflexivity.
  - exact Nr.
  - intros p' w' q' [E _]. destruct (Nat.le_gt_cases (length p) (length p')) as [|L]; [assumption|]. exfalso.
    symmetry in E. destruct (app_len_le _ _ _ _ E ltac:(lia)) as (t & -> & Et).
    destruct t as [|x t]; [rewrite app_nil_r in L; lia|]. cbn [lit app] in Et. injection Et as <- _.
    apply Np. apply in_app_iff. right. left. reflexivity.
Qed.

Lemma release_cuts v f p w r1 r2 : version_text v -> no_quote p -> w <> [] -> no_quote r2 ->
  package_json f = p ++ lit """version"": """ ++ w ++ c_quote :: r1 ++ c_quote :: r2 -> no_nl (package_json f) ->
  exists f', edit (tag_of v) f = Some f' /\ package_json f' = p ++ lit """version"": """ ++ v ++ c_quote :: r2.
Proof.
  intros V Np Nw Nr E N0. exists (edited v f). split; [apply edit_eq; exact V|]. cbn [edited package_json].
  apply lines_inj. rewrite sed_package by exact V. rewrite (lines_line _ N0). cbn [map].
  assert (P : package_line v (package_json f) = p ++ lit """version"": """ ++ v ++ c_quote :: r2).
  { pose proof (first_of_line p w r1 r2 Np Nw Nr) as F. rewrite <- E in F. unfold package_line.
    rewrite (json_version v _ _ _ _ F), (dep_keeps_version _ _ _ _ v F V). unfold json_text.
    rewrite <- !app_assoc. reflexivity. }
  rewrite P, lines_line; [reflexivity|]. rewrite E in N0.
  rewrite !no_nl_app, !no_nl_cons, !no_nl_app, !no_nl_cons in *. destruct N0 as (A & B & C & D & F & G & H).
  repeat split; try assumption; try discriminate. apply version_no_nl. exact V.
Qed.

(** An [&] in the tag stands for the old line. *)
Lemma amp_parts a b : version_text a -> version_text b ->
  parts (lit "version = """ ++ (a ++ c_amp :: b) ++ lit """ " ++ msg) =
  Some (map Char (lit "version = """ ++ a) ++ Whole :: map Char (b ++ lit """ " ++ msg)).
Proof.
  intros [_ A] [_ B]. apply version_plain in A, B. rewrite <- app_assoc, app_assoc.
  rewrite parts_plain by (apply plain_app; [reflexivity|exact A]). cbn [app].
  change (parts (c_amp :: b ++ lit """ " ++ msg)) with (option_map (cons Whole) (parts (b ++ lit """ " ++ msg))).
  rewrite parts_chars by (apply plain_app; [exact B|reflexivity]). reflexivity.
Qed.

Lemma put_app m l l' : put m (l ++ l') = put m l ++ put m l'.
Proof. unfold put. apply flat_map_app. Qed.

Lemma amp_line l t s : managed s -> no_nl s ->
  sed_line false toml_regex (map Char l ++ Whole :: map Char t) s = l ++ s ++ t.
Proof.
  intros M _. unfold sed_line. assert (R : forall n, replace_in n false toml_regex (map Char l ++ Whole :: map Char t) s =
    match search toml_regex s with Some (p, m) => p ++ put m (map Char l ++ Whole :: map Char t) ++ next m | None => s end).
  { destruct n; cbn [replace_in]; destruct (search toml_regex s) as [[p m]|]; reflexivity. }
  rewrite R. destruct (search toml_regex s) as [[p m]|] eqn:E.
  - apply search_some in E. destruct E as [(s' & -> & F & _ & P) _]. rewrite (P eq_refl). cbn [app].
    pose proof (toml_fits _ _ F) as [_ Nx]. destruct F as (a & c & _ & Es & _). rewrite Nx, app_nil_r in Es.
    rewrite put_app, put_chars, Nx, app_nil_r.
    change (put m (Whole :: map Char t)) with (whole m ++ put m (map Char t)). rewrite put_chars, <- Es. reflexivity.
  - exfalso. eapply (search_none _ _ E [] s); [reflexivity|reflexivity|]. apply managed_fits. exact M.
Qed.

Lemma release_amp a b f : version_text a -> version_text b -> managed (core_toml f) -> no_nl (core_toml f) ->
  exists f', edit (tag_of (a ++ c_amp :: b)) f = Some f' /\
    core_toml f' = lit "version = """ ++ a ++ core_toml f ++ b ++ lit """ # managed by release.sh".
Proof.
  intros A B M N0. unfold edit. rewrite strip_tag. unfold toml_text. rewrite (amp_parts a b A B).
  assert (PA : plain a) by (apply version_plain; apply A). assert (PB : plain b) by (apply version_plain; apply B).
  assert (J : exists j, parts (json_text (a ++ c_amp :: b)) = Some j).
  { unfold json_text. rewrite <- app_assoc. rewrite parts_plain by reflexivity. rewrite (parts_plain a PA). cbn [app].
    change (parts (c_amp :: b ++ lit """")) with (option_map (cons Whole) (parts (b ++ lit """"))).
    rewrite (parts_plain b PB). eexists. reflexivity. }
  assert (D : exists d, parts (dep_text (a ++ c_amp :: b)) = Some d).
  { unfold dep_text.
    change (lit """\1"": """ ++ (a ++ c_amp :: b) ++ lit """") with
      (lit """" ++ c_bslash :: 49%N :: (lit """: """ ++ (a ++ c_amp :: b) ++ lit """")).
    rewrite parts_plain by reflexivity.
    change (parts (c_bslash :: 49%N :: ?s)) with (option_map (cons Group) (parts s)). cbv beta.
    rewrite <- app_assoc. rewrite (parts_plain (lit """: """)) by reflexivity. rewrite (parts_plain a PA). cbn [app].
    change (parts (c_amp :: b ++ lit """")) with (option_map (cons Whole) (parts (b ++ lit """"))).
    rewrite (parts_plain b PB). eexists. reflexivity. }
  destruct J as [j ->], D as [d ->]. eexists. split; [reflexivity|]. cbn [core_toml].
  unfold sed. rewrite (lines_line _ N0). cbn [map unlines]. rewrite (amp_line _ _ _ M N0), <- !app_assoc. reflexivity.
Qed.

(** The tag [v] leaves an empty version, which no release replaces. *)
Lemma release_empty : exists f f' y, version_text y /\ edit [118%N] f = Some f' /\ edit (tag_of y) f' <> edit (tag_of y) f.
Proof.
  exists {| smd_toml := []; core_toml := []; gfm_toml := []; package_json := lit """version"": ""1""" |}.
  eexists. exists (lit "2"). split; [split; [discriminate|reflexivity]|]. split; [reflexivity|]. vm_compute. discriminate.
Qed.

(** ** The script goes on *)
Lemma script_goes_on ok tag : tag <> [] ->
  snd (script ok tag) = 0 /\ In TagIt (fst (script ok tag)) /\ In (Cliff true) (fst (script ok tag)).
Proof.
  intros N0. unfold script. destruct tag; [congruence|]. cbn [is_empty fst snd].
  split; [reflexivity|]. destruct (ok Add); cbn; tauto.
Qed.

(** ** The files of /repo *)
Lemma not_managed_short : ~ managed (lit "version = ""0.1.3-pre""").
Proof.
  intros M. pose proof (toml_line_managed [] _ M) as E. vm_compute in E. discriminate E.
Qed.

Lemma repo_stale v x : read_version v = Some x -> version_compare old_version x = Lt ->
  resolves repo = true /\ exists f', edit (tag_of v) repo = Some f' /\ resolves f' = false.
Proof.
  intros R C. split; [vm_compute; reflexivity|]. pose proof (proj1 (version_released v x R)) as V.
  exists (edited v repo). split; [apply edit_eq; exact V|].
  eapply (stale_crate v x old_version repo _ (lit "[dependencies.gfm]") gfm_toml
    (managed_line (lit "0.1.3-pre")) (lit "version = ""0.1.3-pre""") V R (edit_eq v repo V)).
  - right. left. reflexivity.
  - vm_compute. reflexivity.
  - apply managed_line_managed.
  - vm_compute. reflexivity.
  - apply not_managed_short.
  - vm_compute. reflexivity.
  - exact C.
Qed.
