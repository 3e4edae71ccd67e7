(** * NpmFacts: the npm package. *)
From Coq Require Import Ascii String.
From Verif Require Import Strings StringsFacts Npm.
Open Scope list_scope.

(** ** The specification *)

(** The flag of a key: capital letters become a hyphen and the small letter. *)
Inductive flag_name : str -> str -> Prop :=
| flag_nil : flag_name [] []
| flag_capital k s c : (65 <= c <= 90)%N -> flag_name k s -> flag_name (c :: k) (c_minus :: (c + 32)%N :: s)
| flag_other k s c : (c < 65 \/ 90 < c)%N -> flag_name k s -> flag_name (c :: k) (c :: s).

Definition ascii (s : str) : Prop := Forall (fun c => (c < 128)%N) s.

(** What the documentation says of one option (index.ts:17-22). *)
Inductive documented : str * js -> list arg -> Prop :=
| doc_true k f : flag_name k f -> documented (k, JTrue) [AString (lit "--" ++ f)]
| doc_false k : documented (k, JFalse) []
| doc_null k : documented (k, JNull) []
| doc_value k f v : flag_name k f -> documented (k, JString v) [AString (lit "--" ++ f); AString v]
| doc_undefined k f : flag_name k f -> documented (k, JUndefined) [AString (lit "--" ++ f); AUndefined]
| doc_none k : documented (k, JArray []) []
| doc_more k f v vs rest : flag_name k f -> documented (k, JArray vs) rest ->
    documented (k, JArray (v :: vs)) (AString (lit "--" ++ f) :: AString v :: rest).

Lemma flag_spec u k : ascii k -> flag_name k (hyphen_case u k).
Proof.
  unfold hyphen_case, hyphens, js_lower.
  induction 1 as [|c k H _ IH]; cbn [flat_map]; [constructor|].
  rewrite flat_map_app. unfold is_upper. destruct (N.leb 65 c && N.leb c 90) eqn:E.
  - apply andb_true_iff in E. destruct E as [E1 E2]. cbn [flat_map].
    replace (N.ltb c_minus 128) with true by reflexivity.
    apply N.ltb_lt in H. rewrite H. unfold to_lower_c at 2. rewrite E1, E2. cbn [andb app].
    replace (to_lower_c c_minus) with c_minus by reflexivity.
    apply N.leb_le in E1. apply N.leb_le in E2. constructor; [lia|exact IH].
  - cbn [flat_map]. apply N.ltb_lt in H. rewrite H. unfold to_lower_c at 1. rewrite E. cbn [app].
    apply andb_false_iff in E. rewrite !N.leb_gt in E. constructor; [lia|exact IH].
Qed.

Lemma flag_fun k f : flag_name k f -> forall g, flag_name k g -> f = g.
Proof.
  induction 1 as [|k s c H _ IH|k s c H _ IH]; intros g G; inversion G; subst; auto; try lia.
  - f_equal. f_equal. auto.
  - f_equal. auto.
Qed.

Lemma flag_inj k f : flag_name k f -> ~ In c_minus k -> forall k', ~ In c_minus k' -> flag_name k' f -> k = k'.
Proof.
  induction 1 as [|k s c H _ IH|k s c H _ IH]; intros N k' N' G.
  - inversion G. reflexivity.
  - inversion G as [|k2 s2 c2 H2 G2|k2 s2 c2 H2 G2]; subst.
    + assert (c = c2) as -> by lia. f_equal. apply IH; auto.
      * intros I. apply N. right. exact I.
      * intros I. apply N'. right. exact I.
    + exfalso. apply N'. left. reflexivity.
  - inversion G as [|k2 s2 c2 H2 G2|k2 s2 c2 H2 G2]; subst.
    + exfalso. apply N. left. reflexivity.
    + f_equal. apply IH; auto.
      * intros I. apply N. right. exact I.
      * intros I. apply N'. right. exact I.
Qed.

(** ** C54 *)

Lemma documented_entry u e : ascii (fst e) -> documented e (entry_args u e).
Proof.
  destruct e as [k v]. cbn [fst]. intros A. pose proof (flag_spec u k A) as F.
  destruct v as [| | | |s|ss]; cbn [entry_args]; try (constructor; exact F); try constructor.
  induction ss as [|s ss IH]; cbn [flat_map app]; constructor; assumption.
Qed.

Lemma documented_fun e x : documented e x -> forall y, documented e y -> x = y.
Proof.
  induction 1 as [k f F|k|k|k f v F|k f F|k|k f v vs rest F D IH]; intros y Y; inversion Y; subst;
    try reflexivity;
    match goal with G : flag_name k ?g |- context [lit "--" ++ ?g] => rewrite (flag_fun _ _ F g G) end;
    try reflexivity.
  f_equal. f_equal. auto.
Qed.

Lemma options_documented u os : (forall e, In e os -> ascii (fst e)) ->
  forall args, args = options_to_args u os <-> exists pieces, Forall2 documented os pieces /\ args = concat pieces.
Proof.
  intros A args. unfold options_to_args. split.
  - intros ->. exists (map (entry_args u) os). split; [|now rewrite flat_map_concat_map].
    induction os as [|e os IH]; cbn [map]; constructor.
    + apply documented_entry, A. left. reflexivity.
    + apply IH. intros e' I. apply A. right. exact I.
  - intros (ps & F & ->). induction F as [|e p os ps D F IH]; [reflexivity|]. cbn [concat flat_map].
    rewrite IH by (intros e' I; apply A; right; exact I). f_equal.
    apply (documented_fun e); [exact D|]. apply documented_entry, A. left. reflexivity.
Qed.

(** ** What the receiver can see: the settings in their order. *)

(** The settings of an options object: a key alone or with one value. *)
Inductive settings_of : list (str * js) -> list (str * option str) -> Prop :=
| set_nil : settings_of [] []
| set_true k os r : settings_of os r -> settings_of ((k, JTrue) :: os) ((k, None) :: r)
| set_false k os r : settings_of os r -> settings_of ((k, JFalse) :: os) r
| set_null k os r : settings_of os r -> settings_of ((k, JNull) :: os) r
| set_value k v os r : settings_of os r -> settings_of ((k, JString v) :: os) ((k, Some v) :: r)
| set_none k os r : settings_of os r -> settings_of ((k, JArray []) :: os) r
| set_more k v vs os r : settings_of ((k, JArray vs) :: os) r ->
    settings_of ((k, JArray (v :: vs)) :: os) ((k, Some v) :: r).

(** Values that cannot be taken for an option. *)
Definition plain_value (v : str) : Prop := starts_with (lit "--") v = false.
Definition plain_key (k : str) : Prop := ascii k /\ ~ In c_minus k.

Definition render_setting u (s : str * option str) : list arg :=
  AString (flag u (fst s)) :: match snd s with Some v => [AString v] | None => [] end.

Lemma settings_args u os r : settings_of os r -> options_to_args u os = flat_map (render_setting u) r.
Proof.
  induction 1 as [|k os r _ IH|k os r _ IH|k os r _ IH|k v os r _ IH|k os r _ IH|k v vs os r _ IH];
    unfold options_to_args in *; cbn [flat_map entry_args render_setting fst snd app] in *;
    rewrite <- ?IH; reflexivity.
Qed.

Definition plain_setting (s : str * option str) : Prop :=
  plain_key (fst s) /\ match snd s with Some v => plain_value v | None => True end.

Lemma flag_not_plain u k : starts_with (lit "--") (flag u k) = true.
Proof. reflexivity. Qed.

Lemma flag_inj_key u k k' : plain_key k -> plain_key k' -> flag u k = flag u k' -> k = k'.
Proof.
  intros [A N] [A' N'] E. apply app_inv_head in E.
  apply (flag_inj k (hyphen_case u k) (flag_spec u k A) N k' N'). rewrite E. apply flag_spec, A'.
Qed.

Lemma render_settings_inj u r : Forall plain_setting r -> forall r', Forall plain_setting r' ->
  flat_map (render_setting u) r = flat_map (render_setting u) r' -> r = r'.
Proof.
  induction 1 as [|[k v] r [Pk Pv] F IH]; intros r' F' E.
  - destruct r' as [|[k' v'] r']; [reflexivity|discriminate].
  - destruct F' as [|[k' v'] r' [Pk' Pv'] F']; [discriminate|].
    cbn [flat_map render_setting fst snd app] in *. injection E as Ef Er.
    assert (K : k = k') by (apply (flag_inj_key u); auto; unfold flag; cbn [lit app]; congruence).
    subst k'.
    assert (Hd : forall v r, plain_value v -> Forall plain_setting r ->
      forall rest, flat_map (render_setting u) r <> AString v :: rest).
    { intros w q Pw Fq rest Q. destruct Fq as [|[k2 v2] q _ _]; [discriminate|].
      cbn [flat_map render_setting fst snd app] in Q. injection Q as Q _.
      assert (X : starts_with (lit "--") w = true) by (rewrite <- Q; reflexivity).
      unfold plain_value in Pw. congruence. }
    destruct v as [v|], v' as [v'|]; cbn [app] in Er.
    + injection Er as -> Er. f_equal. apply IH; assumption.
    + exfalso. symmetry in Er. apply (Hd v r' Pv F' _ Er).
    + exfalso. apply (Hd v' r Pv' F _ Er).
    + f_equal. apply IH; assumption.
Qed.

Lemma settings_kept u os os' r r' :
  settings_of os r -> settings_of os' r' -> Forall plain_setting r -> Forall plain_setting r' ->
  options_to_args u os = options_to_args u os' -> r = r'.
Proof.
  intros S1 S2 F F' E. rewrite (settings_args u os r S1), (settings_args u os' r' S2) in E.
  apply (render_settings_inj u r F r' F' E).
Qed.

(** A value that begins with two hyphens can be taken for a flag. *)
Lemma settings_mixed u : exists os os' r r',
  settings_of os r /\ settings_of os' r' /\ r <> r' /\ options_to_args u os = options_to_args u os'.
Proof.
  exists [(lit "tag", JString (lit "--latest"))], [(lit "tag", JTrue); (lit "latest", JTrue)],
    [(lit "tag", Some (lit "--latest"))], [(lit "tag", None); (lit "latest", None)].
  split; [repeat constructor|]. split; [repeat constructor|]. split; [discriminate|]. reflexivity.
Qed.

Lemma undefined_passed u k : In AUndefined (options_to_args u [(k, JUndefined)]).
Proof. right. left. reflexivity. Qed.

Lemma only_undefined u os : (forall k, ~ In (k, JUndefined) os) -> ~ In AUndefined (options_to_args u os).
Proof.
  intros H I. unfold options_to_args in I. apply in_flat_map in I. destruct I as ([k v] & Io & I).
  destruct v as [| | | |s|ss]; cbn [entry_args] in I.
  - destruct I as [I|[]]. discriminate.
  - destruct I.
  - destruct I.
  - exact (H k Io).
  - destruct I as [I|[I|[]]]; discriminate.
  - apply in_flat_map in I. destruct I as (s & _ & [X|[X|[]]]); discriminate.
Qed.

(** ** C55 *)

Lemma flags_collide u a b c : ascii a -> ascii b -> (65 <= c <= 90)%N ->
  a ++ [c] ++ b <> a ++ [c_minus; (c + 32)%N] ++ b /\
  flag u (a ++ [c] ++ b) = flag u (a ++ [c_minus; (c + 32)%N] ++ b).
Proof.
  intros A B H. split.
  - intros E. apply app_inv_head in E. cbn [app] in E. injection E as E _. subst c. vm_compute in H. destruct H. congruence.
  - unfold flag, hyphen_case, hyphens, js_lower. rewrite !flat_map_app. f_equal. f_equal. f_equal.
    cbn [flat_map app]. unfold is_upper.
    assert (E : (N.leb 65 c && N.leb c 90) = true) by (apply andb_true_iff; rewrite !N.leb_le; lia).
    assert (E' : (N.leb 65 (c + 32) && N.leb (c + 32) 90) = false) by (apply andb_false_iff; rewrite !N.leb_gt; lia).
    rewrite E, E'. replace (N.leb 65 c_minus && N.leb c_minus 90) with false by reflexivity.
    cbn [flat_map app]. replace (N.ltb c_minus 128) with true by reflexivity.
    assert (L : N.ltb c 128 = true) by (apply N.ltb_lt; lia).
    assert (L' : N.ltb (c + 32) 128 = true) by (apply N.ltb_lt; lia).
    rewrite L, L'. unfold to_lower_c. rewrite E, E'. reflexivity.
Qed.

Lemma flags_apart u k k' : ascii k -> ascii k' -> ~ In c_minus k -> ~ In c_minus k' -> k <> k' ->
  flag u k <> flag u k'.
Proof. intros A A' N N' D E. apply D. apply (flag_inj_key u); [split|split|]; assumption. Qed.

Lemma keys_plain : Forall plain_key option_keys.
Proof.
  assert (H : forallb (fun k => forallb (fun c => N.ltb c 128 && negb (N.eqb c c_minus)) k) option_keys = true)
    by (vm_compute; reflexivity).
  rewrite forallb_forall in H. apply Forall_forall. intros k I. specialize (H k I). rewrite forallb_forall in H.
  split.
  - apply Forall_forall. intros c J. specialize (H c J). apply andb_true_iff in H. apply N.ltb_lt. tauto.
  - intros J. specialize (H _ J). apply andb_true_iff in H. destruct H as [_ H].
    rewrite N.eqb_refl in H. discriminate.
Qed.

Lemma known_flags u k k' : In k option_keys -> In k' option_keys -> k <> k' -> flag u k <> flag u k'.
Proof.
  intros I I' D E. pose proof keys_plain as P. rewrite Forall_forall in P.
  apply D. apply (flag_inj_key u); auto.
Qed.

(** ** The program that is run, and its status *)

Lemma other_program platform arch : exists rest, exe_module platform arch = lit "git-cliff-" ++ rest.
Proof. unfold exe_module. eexists. reflexivity. Qed.

Lemma status_zero e : cli_status e = 0 <-> e = Exited 0.
Proof. destruct e as [[|n]| |]; cbn; split; congruence. Qed.

Lemma status_lost n : n <> 0 -> cli_status (Exited n) = 1.
Proof. destruct n; [congruence|reflexivity]. Qed.
