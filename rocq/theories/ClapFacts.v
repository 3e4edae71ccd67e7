(** * ClapFacts: the reading of the command line follows the grammar of SpecArgs. *)
From Coq Require Import Ascii String.
From Verif Require Import Strings StringsFacts Utf8 System Config Cli Args Clap SpecArgs.
Open Scope list_scope.

(** ** Words *)

Definition shaped (a : str) (w : word) : Prop :=
  match w with
  | Escape => a = lit "--"
  | Long s => s <> [] /\ a = lit "--" ++ s
  | Short s => s <> [] /\ starts_with (lit "-") s = false /\ a = lit "-" ++ s
  | Plain => detached a
  end.

Lemma word_shaped a : shaped a (word_of a).
Proof.
  unfold word_of. destruct (strip_prefix (lit "--") a) as [s|] eqn:E.
  - apply strip_prefix_iff in E. destruct s as [|c s]; cbn [shaped]; [exact E|].
    split; [discriminate|exact E].
  - destruct (strip_prefix (lit "-") a) as [s|] eqn:E1.
    + apply strip_prefix_iff in E1. destruct s as [|c s]; cbn [shaped]; [left; exact E1|].
      split; [discriminate|]. split; [|exact E1].
      destruct (starts_with (lit "-") (c :: s)) eqn:B; [|reflexivity]. exfalso.
      apply starts_with_iff in B. destruct B as [y B]. rewrite B in E1.
      assert (X : strip_prefix (lit "--") a = Some y) by (apply strip_prefix_iff; exact E1).
      congruence.
    + right. destruct (starts_with (lit "-") a) eqn:B; [|reflexivity]. exfalso.
      apply starts_with_iff in B. destruct B as [y B]. apply strip_prefix_iff in B. congruence.
Qed.

Lemma word_of_long s : s <> [] -> word_of (lit "--" ++ s) = Long s.
Proof. intros N. unfold word_of. rewrite strip_prefix_app. destruct s; [congruence|reflexivity]. Qed.

Lemma word_of_short s : s <> [] -> starts_with (lit "-") s = false -> word_of (lit "-" ++ s) = Short s.
Proof.
  intros N B. unfold word_of. destruct (strip_prefix (lit "--") (lit "-" ++ s)) as [y|] eqn:E.
  - apply strip_prefix_iff in E. change (lit "--" ++ y) with (lit "-" ++ lit "-" ++ y) in E.
    apply app_inv_head in E. subst s. rewrite starts_with_app in B. discriminate.
  - rewrite strip_prefix_app. destruct s; [congruence|reflexivity].
Qed.

Lemma word_of_detached x : detached x -> word_of x = Plain.
Proof.
  intros [->|B]; [reflexivity|]. pose proof (word_shaped x) as W. destruct (word_of x) as [|s|s|]; cbn [shaped] in W.
  - subst x. discriminate.
  - destruct W as [_ ->]. discriminate.
  - destruct W as (_ & _ & ->). rewrite starts_with_app in B. discriminate.
  - reflexivity.
Qed.

(** ** The table of the arguments *)

Lemma find_long_root n o : find_long Root n = Some o ->
  (o = OHelp /\ n = lit "help") \/ (o = OVersion /\ n = lit "version") \/
  (o = OVerbose /\ (n = lit "verbose" \/ n = lit "debug")).
Proof.
  unfold find_long. cbn [opts_of List.find def_of a_longs existsb]. rewrite !orb_false_r.
  destruct (str_eqb n (lit "help")) eqn:E1; [apply str_eqb_eq in E1; intros K; injection K as <-; auto|].
  destruct (str_eqb n (lit "version")) eqn:E2; [apply str_eqb_eq in E2; intros K; injection K as <-; auto|].
  destruct (str_eqb n (lit "verbose")) eqn:E3; [apply str_eqb_eq in E3; intros K; injection K as <-; auto|].
  cbn [orb].
  destruct (str_eqb n (lit "debug")) eqn:E4; [apply str_eqb_eq in E4; intros K; injection K as <-; auto|].
  discriminate.
Qed.

Lemma find_long_parse n o : find_long InParse n = Some o ->
  (o = OInput /\ n = lit "input") \/ (o = OOutput /\ n = lit "output") \/
  (o = OHelp /\ n = lit "help") \/ (o = OVersion /\ n = lit "version").
Proof.
  unfold find_long. cbn [opts_of List.find def_of a_longs existsb]. rewrite !orb_false_r.
  destruct (str_eqb n (lit "input")) eqn:E1; [apply str_eqb_eq in E1; intros K; injection K as <-; auto|].
  destruct (str_eqb n (lit "output")) eqn:E2; [apply str_eqb_eq in E2; intros K; injection K as <-; auto|].
  destruct (str_eqb n (lit "help")) eqn:E3; [apply str_eqb_eq in E3; intros K; injection K as <-; auto|].
  destruct (str_eqb n (lit "version")) eqn:E4; [apply str_eqb_eq in E4; intros K; injection K as <-; auto 6|].
  discriminate.
Qed.

Lemma find_long_init n o : find_long InInitialize n = Some o ->
  (o = OHelp /\ n = lit "help") \/ (o = OVersion /\ n = lit "version").
Proof.
  unfold find_long. cbn [opts_of List.find def_of a_longs existsb]. rewrite !orb_false_r.
  destruct (str_eqb n (lit "help")) eqn:E3; [apply str_eqb_eq in E3; intros K; injection K as <-; auto|].
  destruct (str_eqb n (lit "version")) eqn:E4; [apply str_eqb_eq in E4; intros K; injection K as <-; auto 6|].
  discriminate.
Qed.

Lemma find_short_root c o : find_short Root c = Some o ->
  (o = OHelp /\ c = 104%N) \/ (o = OVersion /\ c = 86%N) \/ (o = OVerbose /\ c = 118%N).
Proof.
  unfold find_short. cbn [opts_of List.find def_of a_short].
  destruct (ceq c 104%N) eqn:E1; [apply ceq_eq in E1; intros K; injection K as <-; auto|].
  destruct (ceq c 86%N) eqn:E2; [apply ceq_eq in E2; intros K; injection K as <-; auto|].
  destruct (ceq c 118%N) eqn:E3; [apply ceq_eq in E3; intros K; injection K as <-; auto|].
  discriminate.
Qed.

Lemma find_short_parse c o : find_short InParse c = Some o ->
  (o = OInput /\ c = 105%N) \/ (o = OOutput /\ c = 111%N) \/
  (o = OHelp /\ c = 104%N) \/ (o = OVersion /\ c = 86%N).
Proof.
  unfold find_short. cbn [opts_of List.find def_of a_short].
  destruct (ceq c 105%N) eqn:E1; [apply ceq_eq in E1; intros K; injection K as <-; auto|].
  destruct (ceq c 111%N) eqn:E2; [apply ceq_eq in E2; intros K; injection K as <-; auto|].
  destruct (ceq c 104%N) eqn:E3; [apply ceq_eq in E3; intros K; injection K as <-; auto|].
  destruct (ceq c 86%N) eqn:E4; [apply ceq_eq in E4; intros K; injection K as <-; auto 6|].
  discriminate.
Qed.

Lemma find_short_init c o : find_short InInitialize c = Some o ->
  (o = OHelp /\ c = 104%N) \/ (o = OVersion /\ c = 86%N).
Proof.
  unfold find_short. cbn [opts_of List.find def_of a_short].
  destruct (ceq c 104%N) eqn:E3; [apply ceq_eq in E3; intros K; injection K as <-; auto|].
  destruct (ceq c 86%N) eqn:E4; [apply ceq_eq in E4; intros K; injection K as <-; auto 6|].
  discriminate.
Qed.

Section Facts.
Variable home : option str.
Variable f : fs.
Variable dir : path.

Notation set_value := (set_value home f dir).
Notation long_arg := (long_arg home f dir).
Notation short_args := (short_args home f dir).
Notation sub_args := (sub_args home f dir).
Notation root_args := (root_args home f dir).
Notation understood := (understood home f dir).
Notation options := (options home f dir).
Notation line := (line home f dir).
Notation help_line := (help_line home f dir).

(** ** Before the command *)

Definition bump (k : nat) (g : got) : got :=
  {| g_verbose := Nat.min (g_verbose g + k) 255; g_input := g_input g; g_output := g_output g |}.

Lemma bump_0 g : g_verbose g <= 255 -> bump 0 g = g.
Proof. destruct g as [v i o]. unfold bump. cbn. intros H. f_equal. lia. Qed.

Lemma bump_bump j k g : bump k (bump j g) = bump (j + k) g.
Proof. unfold bump. cbn [g_verbose g_input g_output]. f_equal. lia. Qed.

Lemma bump_le k g : g_verbose (bump k g) <= 255.
Proof. cbn. lia. Qed.

Lemma split_name s : (exists n v, split_once c_eq s = Some (n, v) /\ s = n ++ c_eq :: v /\ ~ In c_eq n) \/
  (split_once c_eq s = None /\ ~ In c_eq s).
Proof.
  destruct (split_once c_eq s) as [[n v]|] eqn:E.
  - left. exists n, v. apply split_once_some in E. destruct E as [E1 E2]. auto.
  - right. split; [reflexivity|]. apply split_once_none. exact E.
Qed.

(** What a word does before the command. *)
Lemma short_bump s k g : g_verbose g <= 255 -> short_args Root g (crep k 118%N ++ s) = short_args Root (bump k g) s.
Proof.
  revert g. induction k as [|k IH]; intros g L; [rewrite bump_0 by exact L; reflexivity|].
  cbn [crep repeat app Clap.short_args]. change (find_short Root 118%N) with (Some OVerbose).
  change (takes_value OVerbose) with false. cbv iota.
  change (react OVerbose g) with (Go {| g_verbose := Nat.min (S (g_verbose g)) 255; g_input := g_input g; g_output := g_output g |}).
  cbv iota. fold (crep k 118%N).
  replace {| g_verbose := Nat.min (S (g_verbose g)) 255; g_input := g_input g; g_output := g_output g |}
    with (bump 1 g) by (unfold bump; f_equal; lia).
  rewrite IH by apply bump_le. rewrite bump_bump. reflexivity.
Qed.

Lemma short_root s : forall g x, g_verbose g <= 255 -> short_args Root g s = x ->
  match x with
  | Go g' => exists k, s = crep k 118%N /\ g' = bump k g
  | Wait _ _ => False
  | Ends ShowHelp => exists k c rest, s = crep k 118%N ++ c :: rest /\ (c = 104%N \/ c = 86%N)
  | Ends Refused => True
  | Ends _ => False
  end.
Proof.
  induction s as [|c s IH]; intros g x L E; cbn [Clap.short_args] in E.
  - subst x. exists 0. split; [reflexivity|]. symmetry. apply bump_0. exact L.
  - destruct (find_short Root c) as [o|] eqn:Fo; [|subst x; exact I].
    apply find_short_root in Fo. destruct Fo as [[-> ->]|[[-> ->]|[-> ->]]].
    + subst x. exists 0, 104%N, s. auto.
    + subst x. exists 0, 86%N, s. auto.
    + change (takes_value OVerbose) with false in E. cbv iota in E.
      change (short_args Root {| g_verbose := Nat.min (S (g_verbose g)) 255; g_input := g_input g; g_output := g_output g |} s = x) in E.
      apply IH in E; [|cbn; lia]. destruct x as [g'|o g'|[c v| | |]]; try exact E.
      * destruct E as (k & -> & ->). exists (S k). split; [reflexivity|]. unfold bump. cbn [g_verbose g_input g_output]. f_equal. lia.
      * destruct E as (k & c & rest & -> & D). exists (S k), c, rest. auto.
Qed.

Lemma long_root s g x : s <> [] -> long_arg Root g s = x ->
  match x with
  | Go g' => louder (lit "--" ++ s) 1 /\ (g_verbose g <= 255 -> g' = bump 1 g)
  | Wait _ _ => False
  | Ends ShowHelp => s = lit "help" \/ s = lit "version"
  | Ends Refused => True
  | Ends _ => False
  end.
Proof.
  intros Ne E. unfold Clap.long_arg in E.
  destruct (split_name s) as [(n & v & Es & -> & No)|[Es No]]; rewrite Es in E.
  - destruct (find_long Root n) as [o|] eqn:Fo; [|subst x; exact I].
    apply find_long_root in Fo. destruct Fo as [[-> ->]|[[-> ->]|[-> Fo]]]; subst x; exact I.
  - destruct (find_long Root s) as [o|] eqn:Fo; [|subst x; exact I].
    apply find_long_root in Fo. destruct Fo as [[-> ->]|[[-> ->]|[-> Fo]]]; subst x.
    + left. reflexivity.
    + right. reflexivity.
    + cbn. split; [destruct Fo as [->| ->]; constructor|].
      intros L. unfold bump. f_equal. lia.
Qed.

Lemma crep_hyphen k c rest : c <> c_minus -> starts_with (lit "-") (crep k 118%N ++ c :: rest) = false.
Proof.
  intros N. destruct k; [|reflexivity]. cbn [crep repeat app]. change (lit "-") with [c_minus]. cbn [starts_with].
  destruct (ceq c_minus c) eqn:E; [|reflexivity]. apply ceq_eq in E. congruence.
Qed.

Lemma root_loud a k g rest : g_verbose g <= 255 -> louder a k -> root_args false g (a :: rest) = root_args false (bump k g) rest.
Proof.
  intros L V. destruct V as [| |k].
  - change (root_args false {| g_verbose := Nat.min (S (g_verbose g)) 255; g_input := g_input g; g_output := g_output g |} rest = root_args false (bump 1 g) rest).
    f_equal. unfold bump. f_equal. lia.
  - change (root_args false {| g_verbose := Nat.min (S (g_verbose g)) 255; g_input := g_input g; g_output := g_output g |} rest = root_args false (bump 1 g) rest).
    f_equal. unfold bump. f_equal. lia.
  - set (s := crep (S k) 118%N).
    assert (W : word_of (lit "-" ++ s) = Short s) by (apply word_of_short; [discriminate|reflexivity]).
    cbn [Clap.root_args].
    change (str_eqb (lit "-" ++ s) (lit "parse")) with false.
    change (str_eqb (lit "-" ++ s) (lit "initialize")) with false. rewrite W. cbv iota.
    rewrite <- (app_nil_r s) at 1. unfold s. rewrite short_bump by exact L. cbn [Clap.short_args]. reflexivity.
Qed.

Lemma root_louds vs k : loudness vs k -> forall g rest, g_verbose g <= 255 ->
  root_args false g (vs ++ rest) = root_args false (bump k g) rest.
Proof.
  induction 1 as [|a k vs n A V IH]; intros g rest L.
  - cbn [app]. rewrite bump_0 by exact L. reflexivity.
  - cbn [app]. rewrite (root_loud a k g (vs ++ rest) L A). rewrite IH by apply bump_le.
    rewrite bump_bump. reflexivity.
Qed.

Lemma root_help k a g rest : g_verbose g <= 255 -> help_word k a -> root_args false g (a :: rest) = ShowHelp.
Proof.
  intros L H. destruct H as [| |c t D]; [reflexivity..|].
  assert (Nc : c <> c_minus) by (destruct D as [->| ->]; discriminate).
  set (s := crep k 118%N ++ c :: t).
  assert (Ns : s <> []) by (unfold s; destruct k; discriminate).
  assert (W : word_of (lit "-" ++ s) = Short s) by (apply word_of_short; [exact Ns|apply crep_hyphen; exact Nc]).
  cbn [Clap.root_args].
  change (str_eqb (lit "-" ++ s) (lit "parse")) with false.
  change (str_eqb (lit "-" ++ s) (lit "initialize")) with false. rewrite W. cbv iota.
  unfold s. rewrite short_bump by exact L. destruct D as [->| ->]; reflexivity.
Qed.

(** ** Behind the command *)

Definition or_else {A} (x y : option A) : option A := match x with Some a => Some a | None => y end.

(** The state behind the options. *)
Definition with_options (g : got) (i : option path) (o : option format) : got :=
  {| g_verbose := g_verbose g; g_input := or_else i (g_input g); g_output := or_else o (g_output g) |}.

Lemma with_none g : with_options g None None = g.
Proof. destruct g. reflexivity. Qed.

Lemma format_of_iff x y : format_of x = Some y <-> format_word x y.
Proof.
  unfold format_of. split.
  - destruct (str_eqb x (lit "pdf")) eqn:E; [apply str_eqb_eq in E; subst; intros K; injection K as <-; constructor|].
    destruct (str_eqb x (lit "html")) eqn:E'; [apply str_eqb_eq in E'; subst; intros K; injection K as <-; constructor|].
    discriminate.
  - intros []; reflexivity.
Qed.

(** An option of [parse] in any of its spellings. *)
Definition opt_names (o : opt) : option (char * str) :=
  match o with
  | OInput => Some (105%N, lit "input")
  | OOutput => Some (111%N, lit "output")
  | _ => None
  end.

Definition after (x : outcome) (rest : list str) : verdict :=
  match x with
  | Go g' => sub_args InParse None false g' rest
  | Wait o' g' => sub_args InParse (Some o') false g' rest
  | Ends v => v
  end.

Lemma sub_gives o c l x ws g rest : opt_names o = Some (c, l) -> gives c l x ws ->
  sub_args InParse None false g (ws ++ rest) = after (set_value o x g) rest.
Proof.
  intros On G.
  assert (Pc : forall r, word_of (lit "-" ++ c :: r) = Short (c :: r)).
  { intros r. apply word_of_short; [discriminate|]. destruct o; try discriminate On; injection On as <- <-; reflexivity. }
  assert (Fs : find_short InParse c = Some o) by (destruct o; try discriminate On; injection On as <- <-; reflexivity).
  assert (Fl : find_long InParse l = Some o) by (destruct o; try discriminate On; injection On as <- <-; reflexivity).
  assert (Tv : takes_value o = true) by (destruct o; try discriminate On; reflexivity).
  assert (Nl : ~ In c_eq l) by (destruct o; try discriminate On; injection On as <- <-; vm_compute; intuition discriminate).
  assert (Ne : l <> []) by (destruct o; try discriminate On; injection On as <- <-; discriminate).
  destruct G as [D|D|N B| |]; cbn [app Clap.sub_args].
  - change (lit "-" ++ [c]) with (lit "-" ++ c :: []). rewrite Pc. cbv iota.
    cbn [Clap.short_args]. rewrite Fs, Tv. cbv iota.
    rewrite (word_of_detached x D). destruct (set_value o x g); reflexivity.
  - rewrite word_of_long by exact Ne. cbv iota. unfold Clap.long_arg.
    assert (Sp : split_once c_eq l = None) by (apply split_once_none; exact Nl). rewrite Sp, Fl, Tv. cbv iota.
    rewrite (word_of_detached x D). destruct (set_value o x g); reflexivity.
  - rewrite Pc. cbv iota. cbn [Clap.short_args]. rewrite Fs, Tv. cbv iota.
    destruct x as [|d r]; [congruence|].
    assert (Q : ceq d c_eq = false).
    { destruct (ceq d c_eq) eqn:Q; [|reflexivity]. apply ceq_eq in Q. subst d. discriminate B. }
    rewrite Q. reflexivity.
  - rewrite Pc. cbv iota. cbn [Clap.short_args]. rewrite Fs, Tv. cbv iota.
    change (lit "=" ++ x) with (c_eq :: x). cbv iota. rewrite ceq_refl. reflexivity.
  - rewrite word_of_long by (destruct l; [congruence|discriminate]). cbv iota. unfold Clap.long_arg.
    change (lit "=" ++ x) with (c_eq :: x). rewrite split_once_app by exact Nl. rewrite Fl, Tv. reflexivity.
Qed.

Lemma sub_options i o ws : options i o ws -> forall g rest,
  (g_input g = None \/ i = None) -> (g_output g = None \/ o = None) ->
  sub_args InParse None false g (ws ++ rest) = sub_args InParse None false (with_options g i o) rest.
Proof.
  induction 1 as [|x p ws o rest' G P _ IH|x y ws i rest' G Y _ IH]; intros g rest Hi Ho.
  - cbn [app]. rewrite with_none. reflexivity.
  - destruct Hi as [Hi|Hi]; [|discriminate]. rewrite <- app_assoc.
    rewrite (sub_gives OInput _ _ x ws g (rest' ++ rest) eq_refl G).
    cbn [Clap.set_value]. rewrite Hi, P. cbn [after]. rewrite IH; [|right; reflexivity|exact Ho].
    unfold with_options. cbn. reflexivity.
  - destruct Ho as [Ho|Ho]; [|discriminate]. rewrite <- app_assoc.
    rewrite (sub_gives OOutput _ _ x ws g (rest' ++ rest) eq_refl G).
    apply format_of_iff in Y. cbn [Clap.set_value]. rewrite Ho, Y. cbn [after].
    rewrite IH; [|exact Hi|right; reflexivity]. unfold with_options. cbn. reflexivity.
Qed.

Lemma sub_help a g rest sc : (sc = InParse \/ sc = InInitialize) -> help_word 0 a -> sub_args sc None false g (a :: rest) = ShowHelp.
Proof.
  intros S H. destruct H as [| |c t D].
  - destruct S as [->| ->]; reflexivity.
  - destruct S as [->| ->]; reflexivity.
  - cbn [crep repeat app]. assert (W : word_of (lit "-" ++ c :: t) = Short (c :: t)).
    { apply word_of_short; [discriminate|]. destruct D as [->| ->]; reflexivity. }
    cbn [Clap.sub_args]. rewrite W. cbn [Clap.short_args].
    destruct S as [->| ->]; destruct D as [->| ->]; reflexivity.
Qed.

Lemma sub_ending tl g sc : words_end tl -> sub_args sc None false g tl = finish sc g.
Proof. intros []; reflexivity. Qed.

Definition start_got : got := {| g_verbose := 0; g_input := None; g_output := None |}.

(** The lines of the grammar are read as they are meant. *)
Lemma line_understood args c v : line args c v -> understood args = Accepted c v.
Proof.
  intros L. unfold Clap.understood. fold start_got. destruct L as [vs k i o ws tl V O T|vs k tl V T].
  - rewrite (root_louds vs k V) by (cbn; lia). cbn [app Clap.root_args].
    change (str_eqb (lit "parse") (lit "parse")) with true. cbv iota.
    rewrite (sub_options _ _ _ O) by (left; reflexivity). rewrite (sub_ending tl _ _ T).
    cbn. f_equal. destruct o; reflexivity.
  - rewrite (root_louds vs k V) by (cbn; lia). cbn [app Clap.root_args].
    change (str_eqb (lit "initialize") (lit "parse")) with false.
    change (str_eqb (lit "initialize") (lit "initialize")) with true. cbv iota.
    rewrite (sub_ending tl _ _ T). reflexivity.
Qed.

Lemma help_understood args : help_line args -> understood args = ShowHelp.
Proof.
  intros L. unfold Clap.understood. fold start_got. destruct L as [vs k n a rest V H|vs k i o ws a rest V O H|vs k a rest V H].
  - rewrite (root_louds vs k V) by (cbn; lia). apply (root_help n); [apply bump_le|exact H].
  - rewrite (root_louds vs k V) by (cbn; lia). cbn [app Clap.root_args].
    change (str_eqb (lit "parse") (lit "parse")) with true. cbv iota.
    rewrite (sub_options _ _ _ O) by (left; reflexivity). apply sub_help; [left; reflexivity|exact H].
  - rewrite (root_louds vs k V) by (cbn; lia). cbn [app Clap.root_args].
    change (str_eqb (lit "initialize") (lit "parse")) with false.
    change (str_eqb (lit "initialize") (lit "initialize")) with true. cbv iota.
    apply sub_help; [right; reflexivity|exact H].
Qed.

(** ** Nothing else is read *)

Definition is_set (o : opt) (x : str) (g g' : got) : Prop :=
  (o = OInput /\ g_input g = None /\ exists p, parse_dir home f dir x = Some p /\ g' = with_options g (Some p) None) \/
  (o = OOutput /\ g_output g = None /\ exists y, format_word x y /\ g' = with_options g None (Some y)).

Lemma set_value_sound o x g r : set_value o x g = r ->
  r = Ends Refused \/ exists g', r = Go g' /\ is_set o x g g'.
Proof.
  intros <-. destruct o; cbn [Clap.set_value]; auto.
  - destruct (g_input g) as [q|] eqn:Gi; [auto|]. destruct (parse_dir home f dir x) as [p|] eqn:P; [|auto].
    right. eexists. split; [reflexivity|]. left. split; [reflexivity|]. split; [exact Gi|]. exists p. split; [exact P|].
    reflexivity.
  - destruct (g_output g) as [q|] eqn:Go'; [auto|]. destruct (format_of x) as [p|] eqn:P; [|auto].
    right. eexists. split; [reflexivity|]. right. split; [reflexivity|]. split; [exact Go'|]. exists p.
    split; [apply format_of_iff; exact P|]. reflexivity.
Qed.

(** One word behind [parse]. *)
Definition parse_effect (a : str) (g : got) (r : outcome) : Prop :=
  r = Ends Refused \/
  (exists o c l x g', r = Go g' /\ opt_names o = Some (c, l) /\ gives c l x [a] /\ is_set o x g g') \/
  (exists o c l, r = Wait o g /\ opt_names o = Some (c, l) /\ (a = lit "-" ++ [c] \/ a = lit "--" ++ l)) \/
  (r = Ends ShowHelp /\ help_word 0 a).

Lemma long_parse s g : parse_effect (lit "--" ++ s) g (long_arg InParse g s).
Proof.
  unfold Clap.long_arg, parse_effect.
  destruct (split_name s) as [(n & v & Es & -> & No)|[Es No]]; rewrite Es.
  - destruct (find_long InParse n) as [o|] eqn:Fo; [|auto].
    apply find_long_parse in Fo. destruct Fo as [[-> ->]|[[-> ->]|[[-> ->]|[-> ->]]]]; try (left; reflexivity);
      change (takes_value _) with true; cbv iota.
    + destruct (set_value_sound OInput v g _ eq_refl) as [K|(g' & K & Si)]; [auto|]. right. left.
      exists OInput, 105%N, (lit "input"), v, g'. repeat split; auto. apply (long_equals 105%N (lit "input") v).
    + destruct (set_value_sound OOutput v g _ eq_refl) as [K|(g' & K & Si)]; [auto|]. right. left.
      exists OOutput, 111%N, (lit "output"), v, g'. repeat split; auto. apply (long_equals 111%N (lit "output") v).
  - destruct (find_long InParse s) as [o|] eqn:Fo; [|auto].
    apply find_long_parse in Fo. destruct Fo as [[-> ->]|[[-> ->]|[[-> ->]|[-> ->]]]].
    + right. right. left. exists OInput, 105%N, (lit "input"). auto.
    + right. right. left. exists OOutput, 111%N, (lit "output"). auto.
    + do 3 right. split; [reflexivity|constructor].
    + do 3 right. split; [reflexivity|constructor].
Qed.

Lemma short_parse s g : s <> [] -> parse_effect (lit "-" ++ s) g (short_args InParse g s).
Proof.
  intros Ne. destruct s as [|c s]; [congruence|]. cbn [Clap.short_args]. unfold parse_effect.
  destruct (find_short InParse c) as [o|] eqn:Fo; [|auto].
  apply find_short_parse in Fo. destruct Fo as [[-> ->]|[[-> ->]|[[-> ->]|[-> ->]]]].
  - change (takes_value OInput) with true. cbv iota. destruct s as [|d r].
    + right. right. left. exists OInput, 105%N, (lit "input"). auto.
    + destruct (ceq d c_eq) eqn:Q.
      * apply ceq_eq in Q. subst d. destruct (set_value_sound OInput r g _ eq_refl) as [K|(g' & K & Si)]; [auto|].
        right. left. exists OInput, 105%N, (lit "input"), r, g'. repeat split; auto.
        apply (short_equals 105%N (lit "input") r).
      * destruct (set_value_sound OInput (d :: r) g _ eq_refl) as [K|(g' & K & Si)]; [auto|].
        right. left. exists OInput, 105%N, (lit "input"), (d :: r), g'. repeat split; auto.
        apply (short_joined 105%N (lit "input") (d :: r)); [discriminate|].
        change (lit "=") with [c_eq]. cbn [starts_with]. rewrite ceq_sym, Q. reflexivity.
  - change (takes_value OOutput) with true. cbv iota. destruct s as [|d r].
    + right. right. left. exists OOutput, 111%N, (lit "output"). auto.
    + destruct (ceq d c_eq) eqn:Q.
      * apply ceq_eq in Q. subst d. destruct (set_value_sound OOutput r g _ eq_refl) as [K|(g' & K & Si)]; [auto|].
        right. left. exists OOutput, 111%N, (lit "output"), r, g'. repeat split; auto.
        apply (short_equals 111%N (lit "output") r).
      * destruct (set_value_sound OOutput (d :: r) g _ eq_refl) as [K|(g' & K & Si)]; [auto|].
        right. left. exists OOutput, 111%N, (lit "output"), (d :: r), g'. repeat split; auto.
        apply (short_joined 111%N (lit "output") (d :: r)); [discriminate|].
        change (lit "=") with [c_eq]. cbn [starts_with]. rewrite ceq_sym, Q. reflexivity.
  - do 3 right. split; [reflexivity|]. apply (help_short 0 104%N s). auto.
  - do 3 right. split; [reflexivity|]. apply (help_short 0 86%N s). auto.
Qed.

(** What is read behind [parse] from the state [g] on. *)
Definition parse_read (g : got) (args : list str) (v : verdict) : Prop :=
  v = Refused \/ exists i o ws tail, args = ws ++ tail /\ options i o ws /\
    (g_input g = None \/ i = None) /\ (g_output g = None \/ o = None) /\
    ((words_end tail /\ v = finish InParse (with_options g i o)) \/
     (exists a rest, tail = a :: rest /\ help_word 0 a /\ v = ShowHelp)).

Lemma parse_read_more o c l x ws g g' rest v : opt_names o = Some (c, l) -> gives c l x ws ->
  is_set o x g g' -> parse_read g' rest v -> parse_read g (ws ++ rest) v.
Proof.
  intros On G Si [->|(i & y & ws' & tail & -> & O & Hi & Ho & K)]; [left; reflexivity|]. right.
  destruct Si as [(-> & Gi & p & P & ->)|(-> & Gi & z & Z & ->)]; injection On as <- <-.
  - destruct Hi as [Hi|Hi]; [discriminate|]. subst i.
    exists (Some p), y, (ws ++ ws'), tail. split; [rewrite app_assoc; reflexivity|].
    split; [apply (input_option home f dir x); assumption|]. split; [left; exact Gi|]. split; [exact Ho|exact K].
  - destruct Ho as [Ho|Ho]; [discriminate|]. subst y.
    exists i, (Some z), (ws ++ ws'), tail. split; [rewrite app_assoc; reflexivity|].
    split; [apply (output_option home f dir x); assumption|]. split; [exact Hi|]. split; [left; exact Gi|exact K].
Qed.

Lemma sub_escaped sc w g args : args <> [] -> sub_args sc w true g args = Refused.
Proof. destruct args; [congruence|reflexivity]. Qed.

Lemma parse_waiting o c l g args :
  (forall g' rest, length rest < length args -> parse_read g' rest (sub_args InParse None false g' rest)) ->
  opt_names o = Some (c, l) ->
  forall a, (a = lit "-" ++ [c] \/ a = lit "--" ++ l) ->
  parse_read g (a :: args) (sub_args InParse (Some o) false g args).
Proof.
  intros IH On a A. destruct args as [|x rest]; [left; reflexivity|]. cbn [Clap.sub_args].
  pose proof (word_shaped x) as W. destruct (word_of x) as [|s|s|]; cbn [shaped] in W.
  - destruct rest; left; reflexivity.
  - left. reflexivity.
  - left. reflexivity.
  - destruct (set_value_sound o x g _ eq_refl) as [->|(g' & -> & Si)]; [left; reflexivity|].
    change (a :: x :: rest) with ([a; x] ++ rest). apply (parse_read_more o c l x [a; x] g g'); [exact On| |exact Si|].
    + destruct A as [->| ->]; [apply short_apart|apply long_apart]; exact W.
    + apply IH. apply le_n.
Qed.

Lemma parse_sound n : forall args g, length args <= n -> parse_read g args (sub_args InParse None false g args).
Proof.
  induction n as [n IH] using lt_wf_ind. intros args g Le.
  assert (IH' : forall g' rest, length rest < length args -> parse_read g' rest (sub_args InParse None false g' rest)).
  { intros g' rest L. apply (IH (length rest)); lia. }
  destruct args as [|a rest].
  - right. exists None, None, [], []. repeat split; auto; [constructor|]. left. split; [constructor|].
    rewrite with_none. reflexivity.
  - assert (Eff : forall r, parse_effect a g r ->
      parse_read g (a :: rest) match r with
                      | Go g' => sub_args InParse None false g' rest
                      | Wait o' g' => sub_args InParse (Some o') false g' rest
                      | Ends v => v
                      end).
    { intros r [->|[(o & c & l & x & g' & -> & On & G & Si)|[(o & c & l & -> & On & A)|[-> H]]]].
      - left. reflexivity.
      - change (a :: rest) with ([a] ++ rest). apply (parse_read_more o c l x [a] g g'); auto.
      - apply (parse_waiting o c l g rest); auto. intros g' rest' L. apply IH'.
        apply (Nat.lt_trans _ _ _ L). apply le_n.
      - right. exists None, None, [], (a :: rest). repeat split; auto; [constructor|]. right. exists a, rest. auto. }
    cbn [Clap.sub_args]. pose proof (word_shaped a) as W. destruct (word_of a) as [|s|s|]; cbn [shaped] in W.
    + subst a. destruct rest as [|b rest]; [|left; reflexivity].
      right. exists None, None, [], [lit "--"]. repeat split; auto; [constructor|]. left.
      split; [constructor|]. rewrite with_none. reflexivity.
    + destruct W as [_ ->]. apply Eff, long_parse.
    + destruct W as (Ne & _ & ->). apply Eff, short_parse. exact Ne.
    + left. reflexivity.
Qed.

(** Behind [initialize]. *)
Lemma init_sound args g :
  sub_args InInitialize None false g args = Refused \/
  (words_end args /\ sub_args InInitialize None false g args = Accepted CInitialize (g_verbose g)) \/
  (exists a rest, args = a :: rest /\ help_word 0 a /\ sub_args InInitialize None false g args = ShowHelp).
Proof.
  destruct args as [|a rest]; [right; left; split; [constructor|reflexivity]|].
  cbn [Clap.sub_args]. pose proof (word_shaped a) as W. destruct (word_of a) as [|s|s|]; cbn [shaped] in W.
  - subst a. destruct rest; [right; left; split; [constructor|reflexivity]|left; reflexivity].
  - destruct W as [_ ->]. unfold Clap.long_arg.
    destruct (split_name s) as [(n & v & Es & -> & No)|[Es No]]; rewrite Es.
    + destruct (find_long InInitialize n) as [o|] eqn:Fo; [|auto].
      apply find_long_init in Fo. destruct Fo as [[-> ->]|[-> ->]]; left; reflexivity.
    + destruct (find_long InInitialize s) as [o|] eqn:Fo; [|auto].
      apply find_long_init in Fo. destruct Fo as [[-> ->]|[-> ->]]; right; right.
      * exists (lit "--help"), rest. split; [reflexivity|]. split; [constructor|reflexivity].
      * exists (lit "--version"), rest. split; [reflexivity|]. split; [constructor|reflexivity].
  - destruct W as (Ne & _ & ->). destruct s as [|c s]; [congruence|]. cbn [Clap.short_args].
    destruct (find_short InInitialize c) as [o|] eqn:Fo; [|auto].
    apply find_short_init in Fo. destruct Fo as [[-> ->]|[-> ->]]; right; right.
    + exists (lit "-" ++ 104%N :: s), rest. split; [reflexivity|]. split; [apply (help_short 0); auto|reflexivity].
    + exists (lit "-" ++ 86%N :: s), rest. split; [reflexivity|]. split; [apply (help_short 0); auto|reflexivity].
  - left. reflexivity.
Qed.

(** All of it. *)
Definition root_read (g : got) (args : list str) (r : verdict) : Prop :=
  r = Refused \/ exists vs k tail, args = vs ++ tail /\ loudness vs k /\
    ((exists n a rest, tail = a :: rest /\ help_word n a /\ r = ShowHelp) \/
     (exists rest, tail = lit "parse" :: rest /\ parse_read (bump k g) rest r) \/
     (exists rest, tail = lit "initialize" :: rest /\ r = sub_args InInitialize None false (bump k g) rest)).

Lemma root_sound args : forall g, g_verbose g <= 255 -> root_read g args (root_args false g args).
Proof.
  induction args as [|a rest IH]; intros g L; [left; reflexivity|]. cbn [Clap.root_args].
  assert (More : forall k r, louder a k -> root_read (bump k g) rest r -> root_read g (a :: rest) r).
  { intros k r A [->|(vs & j & tail & -> & V & K)]; [left; reflexivity|]. right.
    exists (a :: vs), (k + j), tail. split; [reflexivity|]. split; [constructor; assumption|].
    rewrite bump_bump in K. exact K. }
  assert (B0 : bump 0 g = g) by (apply bump_0; exact L).
  destruct (str_eqb a (lit "parse")) eqn:E1.
  - apply str_eqb_eq in E1. subst a. right. exists [], 0, (lit "parse" :: rest).
    split; [reflexivity|]. split; [constructor|]. right. left. exists rest. split; [reflexivity|]. rewrite B0.
    apply (parse_sound (length rest)). lia.
  - destruct (str_eqb a (lit "initialize")) eqn:E2.
    + apply str_eqb_eq in E2. subst a. right. exists [], 0, (lit "initialize" :: rest).
      split; [reflexivity|]. split; [constructor|]. right. right. exists rest. rewrite B0. auto.
    + pose proof (word_shaped a) as W. destruct (word_of a) as [|s|s|]; cbn [shaped] in W.
      * destruct rest; left; reflexivity.
      * destruct W as [Ne ->]. pose proof (long_root s g _ Ne eq_refl) as K.
        destruct (long_arg Root g s) as [g'|o g'|[c v| | |]]; try contradiction.
        -- destruct K as [A ->]; [|exact L]. apply (More 1); [exact A|]. apply IH. apply bump_le.
        -- right. exists [], 0, ((lit "--" ++ s) :: rest). split; [reflexivity|]. split; [constructor|]. left.
           exists 0, (lit "--" ++ s), rest. split; [reflexivity|]. split; [|reflexivity].
           destruct K as [->| ->]; constructor.
        -- left. reflexivity.
      * destruct W as (Ne & Nh & ->). pose proof (short_root s g _ L eq_refl) as K.
        destruct (short_args Root g s) as [g'|o g'|[c v| | |]]; try contradiction.
        -- destruct K as (k & -> & ->). destruct k as [|k]; [exfalso; apply Ne; reflexivity|].
           apply (More (S k)); [constructor|]. apply IH. apply bump_le.
        -- destruct K as (k & c & t & -> & D). right. exists [], 0, ((lit "-" ++ crep k 118%N ++ c :: t) :: rest).
           split; [reflexivity|]. split; [constructor|]. left.
           exists k, (lit "-" ++ crep k 118%N ++ c :: t), rest. split; [reflexivity|]. split; [|reflexivity].
           constructor. exact D.
        -- left. reflexivity.
      * left. reflexivity.
Qed.

(** The command line is understood exactly as the grammar says. *)
Lemma understood_cases args :
  understood args = Refused \/ (exists c v, understood args = Accepted c v /\ line args c v) \/
  (understood args = ShowHelp /\ help_line args).
Proof.
  assert (L0 : g_verbose start_got <= 255) by (cbn; lia).
  destruct (root_sound args start_got L0) as [E|(vs & k & tail & E & V & K)]; [left; exact E|].
  change (root_args false start_got args) with (understood args) in K.
  destruct K as [(n & a & rest & -> & H & K)|[(rest & -> & [K|(i & o & ws & tl & -> & O & Hi & Ho & K)])|(rest & -> & K)]].
  - right. right. split; [exact K|]. subst args. apply (help_root home f dir vs k n); assumption.
  - left. exact K.
  - destruct K as [[T K]|(a & r & -> & H & K)].
    + cbn [finish with_options g_input or_else] in K. destruct i as [p|].
      * right. left. exists (CParse p (or_pdf o)), (Nat.min k 255). split.
        -- rewrite K. cbn. f_equal. destruct o; reflexivity.
        -- subst args. apply (line_parse home f dir vs k p o ws tl V O T).
      * left. exact K.
    + right. right. split; [exact K|]. subst args. apply (help_parse home f dir vs k i o ws a r V O H).
  - destruct (init_sound rest (bump k start_got)) as [R|[[T R]|(a & r & -> & H & R)]]; rewrite <- K in R.
    + left. exact R.
    + right. left. exists CInitialize, (Nat.min k 255). split; [exact R|]. subst args.
      apply (line_initialize home f dir vs k rest V T).
    + right. right. split; [exact R|]. subst args. apply (help_initialize home f dir vs k a r V H).
Qed.

Lemma accepted_iff args c v : understood args = Accepted c v <-> line args c v.
Proof.
  split; [|apply line_understood]. intros E.
  destruct (understood_cases args) as [K|[(c' & v' & K & L)|[K _]]]; rewrite E in K; try discriminate.
  injection K as <- <-. exact L.
Qed.

Lemma help_iff args : understood args = ShowHelp <-> help_line args.
Proof.
  split; [|apply help_understood]. intros E.
  destruct (understood_cases args) as [K|[(c' & v' & K & L)|[K L]]]; rewrite E in K; try discriminate. exact L.
Qed.

Lemma never_version args : understood args <> ShowVersion.
Proof. intros E. destruct (understood_cases args) as [K|[(c' & v' & K & L)|[K L]]]; congruence. Qed.

End Facts.
