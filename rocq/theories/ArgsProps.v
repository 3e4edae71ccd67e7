(** * ArgsProps: the whole program, from the words of its command line on. *)
From Coq Require Import Ascii String.
From Verif Require Import Strings StringsFacts Token Iter Lexer Parser Utf8 System Config Cli SpecCli SystemFacts CliFacts
  CliMain CliRuns CliProps Args Clap SpecArgs ClapFacts Filter SpecLog FilterFacts Npm NpmFacts.
Open Scope list_scope.

(** ** C51, C52: the log *)

Lemma error_shown n st c m f xs f' p' :
  exec xs f (start m (main n st c)) = (f', p') -> status p' = Some 1 ->
  exists e, In e (logged (here p')) /\ rec_level e = LError /\ rec_target e = lit "smd" /\
    forall regex spec es, entries spec es ->
      (In e (shown regex spec (logged (here p'))) <-> exists l, decides es (lit "smd") l /\ 1 <= l).
Proof.
  intros E S1. destruct (exit_told n st c m f xs f' p' 1 E S1) as [[X _]|[(_ & e & pre & L)|X]]; try discriminate.
  exists (error_record e). rewrite L.
  assert (I : In (error_record e) (pre ++ [error_record e])) by (apply in_or_app; right; left; reflexivity).
  split; [exact I|]. split; [reflexivity|]. split; [reflexivity|].
  intros regex spec es Es. unfold shown. rewrite filter_In. rewrite (passes_decides regex spec es _ Es).
  change (rec_target (error_record e)) with (lit "smd"). change (rank (rec_level (error_record e))) with 1.
  split; [intros [_ K]; exact K|auto].
Qed.

Lemma level_decides w l : level_word w l -> entries w [(None, l)] /\ forall target l', decides [(None, l)] target l' <-> l' = l.
Proof.
  intros L. split; [constructor; constructor; exact L|]. intros target l'. split.
  - intros (pre & name & post & E & _). destruct pre as [|x pre]; [injection E as <- <- _; reflexivity|destruct pre; discriminate].
  - intros ->. exists [], None, []. split; [reflexivity|]. split; [exact I|]. split; [intros ? []|].
    intros n' l' [K|[]] _. injection K as <- <-. apply le_n.
Qed.

(** A word that is no level hides everything outside the modules it names. *)
Lemma word_hides regex w r : module_name w -> (forall l, ~ level_word w l) ->
  passes regex w r = starts_with w (rec_target r).
Proof.
  intros M No. assert (E : entries w [(Some w, 5)]) by (constructor; constructor; assumption).
  destruct (starts_with w (rec_target r)) eqn:S.
  - apply (passes_decides regex w _ r E). exists 5. split; [|destruct (rec_level r); cbn; lia].
    exists [], (Some w), []. split; [reflexivity|]. split; [exact S|]. split; [intros ? []|].
    intros n' l' [K|[]] _. injection K as <- <-. apply le_n.
  - destruct (passes regex w r) eqn:P; [|reflexivity]. apply (passes_decides regex w _ r E) in P.
    destruct P as (l & (pre & name & post & K & A & _) & _).
    destruct pre as [|x pre]; [injection K as <- <- _; cbn in A; congruence|destruct pre; discriminate].
Qed.

Lemma silent_failure n st c m f xs f' p' w :
  exec xs f (start m (main n st c)) = (f', p') -> status p' = Some 1 ->
  module_name w -> (forall l, ~ level_word w l) -> starts_with w (lit "smd") = false ->
  exists e pre, logged (here p') = pre ++ [e] /\ rec_level e = LError /\
    forall regex, ~ In e (shown regex (rust_log (verbose_of 0) (Some w)) (logged (here p'))).
Proof.
  intros E S1 M No Sw. destruct (exit_told n st c m f xs f' p' 1 E S1) as [[X _]|[(_ & e & pre & L)|X]]; try discriminate.
  exists (error_record e), pre. split; [exact L|]. split; [reflexivity|]. intros regex I.
  unfold shown in I. apply filter_In in I. destruct I as [_ P]. change (rust_log (verbose_of 0) (Some w)) with w in P.
  rewrite word_hides in P by assumption. change (rec_target (error_record e)) with (lit "smd") in P. congruence.
Qed.

Lemma silent_run : exists n st c m f xs f' p',
  new_process m f /\ exec xs f (start m (main n st c)) = (f', p') /\ status p' = Some 1 /\
  forall regex, shown regex (rust_log (verbose_of 0) (Some (lit "verbose"))) (logged (here p')) = [] /\
    shown regex (rust_log (verbose_of 0) (Some (lit "off"))) (logged (here p')) = [].
Proof.
  pose (r := exec (oks 9) (sample_disk [] []) (start (sample_machine 1) (main 9 sample_settings
              (CParse [lit "w"; lit "missing"] Html)))).
  exists 9, sample_settings, (CParse [lit "w"; lit "missing"] Html), (sample_machine 1), (sample_disk [] []),
    (oks 9), (fst r), (snd r).
  split; [apply disk_new; reflexivity|]. split; [apply surjective_pairing|].
  split; [vm_compute; reflexivity|]. intros regex. split; vm_compute; reflexivity.
Qed.

Lemma level_passes regex w l r : level_word w l -> passes regex w r = (rank (rec_level r) <=? l).
Proof.
  intros L. destruct (level_decides w l L) as [E D]. pose proof (passes_decides regex w _ r E) as P.
  destruct (passes regex w r).
  - destruct (proj1 P eq_refl) as (l' & Dl & R). apply D in Dl. subst l'. symmetry. apply Nat.leb_le. exact R.
  - destruct (rank (rec_level r) <=? l) eqn:R; [|reflexivity]. apply Nat.leb_le in R.
    apply (proj2 P). exists l. split; [apply D; reflexivity|exact R].
Qed.

Lemma verbosity home f dir args c v : understood home f dir args = Accepted c v ->
  exists vs k rest, args = vs ++ rest /\ loudness vs k /\
  ((exists i o ws tl, rest = [lit "parse"] ++ ws ++ tl /\ options home f dir i o ws /\ words_end tl) \/
   (exists tl, rest = [lit "initialize"] ++ tl /\ words_end tl)) /\
  forall regex var r,
    (k = 0 -> passes regex (rust_log v var) r =
       match var with None => rank (rec_level r) <=? rank LInfo | Some s => passes regex s r end) /\
    (k = 1 -> passes regex (rust_log v var) r = (rank (rec_level r) <=? rank LDebug)) /\
    (2 <= k -> passes regex (rust_log v var) r = true).
Proof.
  intros U. apply accepted_iff in U.
  assert (G : exists vs k rest, args = vs ++ rest /\ loudness vs k /\
    ((exists i o ws tl, rest = [lit "parse"] ++ ws ++ tl /\ options home f dir i o ws /\ words_end tl) \/
     (exists tl, rest = [lit "initialize"] ++ tl /\ words_end tl)) /\ v = Nat.min k 255).
  { destruct U as [vs k i o ws tl V O T|vs k tl V T]; eexists vs, k, _; (split; [reflexivity|]); (split; [exact V|]).
    - split; [left; exists (Some i), o, ws, tl; auto|reflexivity].
    - split; [right; exists tl; auto|reflexivity]. }
  destruct G as (vs & k & rest & E & V & R & ->). exists vs, k, rest. do 3 (split; [assumption|]).
  intros regex var r. split; [|split].
  - intros ->. change (rust_log (Nat.min 0 255) var) with (match var with None => lit "info" | Some v => v end).
    destruct var; [reflexivity|]. apply level_passes. reflexivity.
  - intros ->. apply (level_passes regex (lit "debug") 4). reflexivity.
  - intros K. assert (Q : rust_log (Nat.min k 255) var = lit "trace").
    { unfold rust_log. assert (M : 2 <= Nat.min k 255) by lia. revert M. generalize (Nat.min k 255). intros j M.
      destruct (j =? 1) eqn:J; [apply Nat.eqb_eq in J; lia|].
      destruct (1 <? j) eqn:J'; [reflexivity|apply Nat.ltb_ge in J'; lia]. }
    rewrite Q, (level_passes regex (lit "trace") 5) by reflexivity. destruct (rec_level r); reflexivity.
Qed.

(** ** C60 *)

Lemma version_help home f dir args :
  understood home f dir args <> ShowVersion /\
  forall vs k rest, loudness vs k ->
    understood home f dir (vs ++ lit "--version" :: rest) = ShowHelp /\
    understood home f dir (vs ++ lit "-V" :: rest) = ShowHelp.
Proof.
  split; [apply never_version|]. intros vs k rest V. split; apply help_understood.
  - apply (help_root home f dir vs k 0 _ rest V). constructor.
  - apply (help_root home f dir vs k 0 _ rest V). apply (help_short 0 86%N []). auto.
Qed.

(** ** C64: the whole program *)

Lemma program_end home f dir n st args m xs : 
  (forall c v, understood home f dir args <> Accepted c v) ->
  exists p', exec xs f (start m (program home f dir n st args)) = (f, p') /\ logged (here p') = [] /\
    status p' = Some (match understood home f dir args with Refused => 2 | _ => 0 end).
Proof.
  intros N. unfold program. destruct (understood home f dir args) as [c v| | |]; [exfalso; apply (N c v); reflexivity|..];
    (eexists; split; [apply (exec_done xs f (start m _) _ eq_refl)|]; split; reflexivity).
Qed.

(** Status 2 is for command lines that are refused, and only for them. *)
Lemma status_2 home f dir n st args m xs f' p' :
  exec xs f (start m (program home f dir n st args)) = (f', p') ->
  (status p' = Some 2 <-> understood home f dir args = Refused).
Proof.
  intros E. destruct (understood home f dir args) as [c v| | |] eqn:U.
  - unfold program in E. rewrite U in E. split; [|discriminate]. intros S2.
    destruct (exit_told n st c m f xs f' p' 2 E S2) as [[X _]|[[X _]|X]]; discriminate.
  - destruct (program_end home f dir n st args m xs) as (q & E' & _ & S); [intros c v; congruence|].
    rewrite E in E'. injection E' as <- <-. rewrite U in S. split; congruence.
  - destruct (program_end home f dir n st args m xs) as (q & E' & _ & S); [intros c v; congruence|].
    rewrite E in E'. injection E' as <- <-. rewrite U in S. split; congruence.
  - destruct (program_end home f dir n st args m xs) as (q & E' & _ & S); [intros c v; congruence|].
    rewrite E in E'. injection E' as <- <-. rewrite U in S. split; congruence.
Qed.

Lemma html_command home f n st m xs args input v f' p' :
  new_process m f -> Forall no_short xs -> line home f (cwd m) args (CParse input Html) v ->
  exec xs f (start m (program home f (cwd m) n st args)) = (f', p') -> status p' = Some 0 ->
  exists b s html out,
    contents f input = Some b /\ decode b = Some s /\ renders s html /\
    replaced (lit "html") input out /\
    contents f' out = Some (encode html) /\ only_changes f out f'.
Proof.
  intros Np Ns L E S0. apply accepted_iff in L. unfold program in E. rewrite L in E.
  exact (html_written n st m f xs input f' p' Np Ns E S0).
Qed.

(** ** C66: the options of the npm package *)

(** options.ts: the first keys are for booleans. *)
Definition boolean_keys : list str :=
  map lit ["help"; "version"; "verbose"; "bumpedVersion"; "latest"; "current"; "unreleased";
           "topoOrder"; "useBranchTags"; "noExec"; "context"]%string.

(** An object of the type [Options]. *)
Definition well_typed (os : list (str * js)) : Prop :=
  forall k v, In (k, v) os -> In k option_keys /\ (In k boolean_keys -> v = JTrue \/ v = JFalse).

Lemma unknown_refused home f dir g k rest u : In k option_keys -> ~ In k (map lit ["help"; "version"; "verbose"]%string) ->
  root_args home f dir false g (flag u k :: rest) = Refused.
Proof.
  intros I N. cbn in N. unfold option_keys in I. cbn [map] in I.
  do 3 (destruct I as [<-|I]; [exfalso; apply N; auto|]).
  repeat (destruct I as [<-|I]; [reflexivity|]). destruct I.
Qed.

Lemma options_refused home f dir u os : well_typed os -> forall g args c v,
  options_to_args u os = map AString args -> root_args home f dir false g args <> Accepted c v.
Proof.
  induction os as [|[k x] os IH]; intros T g args c v E.
  - destruct args; discriminate.
  - assert (T' : well_typed os) by (intros k' v' I; apply T; right; exact I).
    destruct (T k x (or_introl eq_refl)) as [I B]. unfold options_to_args in E. cbn [flat_map entry_args] in E.
    fold (options_to_args u os) in E.
    assert (D : In k (map lit ["help"; "version"; "verbose"]%string) \/ ~ In k (map lit ["help"; "version"; "verbose"]%string)).
    { destruct (existsb (str_eqb k) (map lit ["help"; "version"; "verbose"]%string)) eqn:X.
      - left. apply existsb_exists in X. destruct X as (y & Iy & Ey). apply str_eqb_eq in Ey. subst y. exact Iy.
      - right. intros Ik. assert (X' : existsb (str_eqb k) (map lit ["help"; "version"; "verbose"]%string) = true)
          by (apply existsb_exists; exists k; split; [exact Ik|apply str_eqb_refl]). congruence. }
    destruct D as [D|D].
    + assert (Bk : In k boolean_keys) by (cbn in D |- *; intuition).
      destruct (B Bk) as [->| ->]; [|cbn [app] in E; apply (IH T' g args c v E)].
      cbn [app] in E. destruct args as [|a args]; [discriminate|]. injection E as Ea E.
      cbn in D. destruct D as [<-|[<-|[<-|[]]]]; rewrite <- Ea; try discriminate.
      change (root_args home f dir false {| g_verbose := Nat.min (S (g_verbose g)) 255; g_input := g_input g; g_output := g_output g |} args <> Accepted c v).
      apply (IH T'). exact E.
    + assert (Fl : forall rest, map AString args = AString (flag u k) :: rest -> root_args home f dir false g args <> Accepted c v).
      { intros rest K. destruct args as [|a args]; [discriminate|]. injection K as Ka _. rewrite Ka.
        rewrite unknown_refused by assumption. discriminate. }
      destruct x as [| | | |s|ss]; cbn [app] in E.
      * apply (Fl _ (eq_sym E)).
      * apply (IH T' g args c v E).
      * apply (IH T' g args c v E).
      * apply (Fl _ (eq_sym E)).
      * apply (Fl _ (eq_sym E)).
      * destruct ss as [|s ss]; [apply (IH T' g args c v E)|]. cbn [flat_map app] in E. apply (Fl _ (eq_sym E)).
Qed.

Lemma npm_refused home f dir u os args c v : well_typed os ->
  options_to_args u os = map AString args -> understood home f dir args <> Accepted c v.
Proof. intros T E. apply (options_refused home f dir u os T _ args c v E). Qed.

(** ** C67: the usage line *)

Lemma gives_root home f dir c l x ws g rest : gives c l x ws ->
  (c = 105%N /\ l = lit "input") \/ (c = 111%N /\ l = lit "output") ->
  root_args home f dir false g (ws ++ rest) = Refused.
Proof.
  intros G D.
  assert (Sh : forall r, root_args home f dir false g ((lit "-" ++ c :: r) :: rest) = Refused /\
                forall y, root_args home f dir false g ((lit "-" ++ c :: r) :: y :: rest) = Refused).
  { intros r.
    assert (W : word_of (lit "-" ++ c :: r) = Short (c :: r)).
    { apply word_of_short; [discriminate|]. destruct D as [[-> _]|[-> _]]; reflexivity. }
    cbn [root_args]. change (str_eqb (lit "-" ++ c :: r) (lit "parse")) with false.
    change (str_eqb (lit "-" ++ c :: r) (lit "initialize")) with false. rewrite W. cbn [short_args].
    destruct D as [[-> _]|[-> _]]; split; reflexivity. }
  destruct G as [H|H|H H'| |]; cbn [app].
  - apply (proj2 (Sh []) x).
  - destruct D as [[-> ->]|[-> ->]]; reflexivity.
  - apply (proj1 (Sh x)).
  - apply (proj1 (Sh (lit "=" ++ x))).
  - set (w := lit "--" ++ l ++ lit "=" ++ x).
    assert (W : word_of w = Long (l ++ lit "=" ++ x)) by (apply word_of_long; destruct l; discriminate).
    assert (E1 : str_eqb w (lit "parse") = false) by reflexivity.
    assert (E2 : str_eqb w (lit "initialize") = false) by reflexivity.
    cbn [root_args]. rewrite E1, E2, W. unfold long_arg.
    assert (Sp : split_once c_eq (l ++ lit "=" ++ x) = Some (l, x)).
    { apply (split_once_app c_eq l x). destruct D as [[_ ->]|[_ ->]]; vm_compute; intuition discriminate. }
    rewrite Sp. destruct D as [[_ ->]|[_ ->]]; reflexivity.
Qed.

Lemma loud_refused home f dir vs k : loudness vs k -> forall g, g_verbose g <= 255 -> root_args home f dir false g vs = Refused.
Proof.
  intros V g L. rewrite <- (app_nil_r vs). rewrite (root_louds home f dir vs k V g [] L). reflexivity.
Qed.

Lemma usage_refused home f dir i o ws vs k : options home f dir i o ws -> loudness vs k ->
  understood home f dir (ws ++ vs) = Refused /\ understood home f dir (vs ++ ws) = Refused.
Proof.
  intros O V. unfold understood.
  assert (L0 : forall g, g_verbose g <= 255 -> root_args home f dir false g ws = Refused /\ root_args home f dir false g (ws ++ vs) = Refused).
  { intros g Lg. destruct O as [|x p ws o rest G _ _|x y ws i rest G _ _].
    - split; [reflexivity|]. apply (loud_refused home f dir vs k V g Lg).
    - split; [|rewrite <- app_assoc]; apply (gives_root home f dir _ _ _ _ _ _ G); auto.
    - split; [|rewrite <- app_assoc]; apply (gives_root home f dir _ _ _ _ _ _ G); auto. }
  split; [apply L0; cbn; lia|]. rewrite (root_louds home f dir vs k V) by (cbn; lia). apply L0. apply bump_le.
Qed.

Lemma late_verbose home f dir vs k i o ws a j rest : loudness vs k -> options home f dir i o ws -> louder a j ->
  understood home f dir (vs ++ [lit "parse"] ++ ws ++ a :: rest) = Refused /\
  understood home f dir (vs ++ [lit "initialize"] ++ a :: rest) = Refused.
Proof.
  intros V O A.
  assert (Sub : forall sc g, (sc = InParse \/ sc = InInitialize) -> sub_args home f dir sc None false g (a :: rest) = Refused).
  { intros sc g Sc. destruct A as [| |n].
    - destruct Sc as [->| ->]; reflexivity.
    - destruct Sc as [->| ->]; reflexivity.
    - assert (W : word_of (lit "-" ++ crep (S n) 118%N) = Short (crep (S n) 118%N)) by (apply word_of_short; [discriminate|reflexivity]).
      cbn [sub_args]. rewrite W. cbn [crep repeat short_args]. destruct Sc as [->| ->]; reflexivity. }
  unfold understood. split; rewrite (root_louds home f dir vs k V) by (cbn; lia); cbn [app root_args].
  - change (str_eqb (lit "parse") (lit "parse")) with true. cbv iota.
    rewrite (sub_options home f dir _ _ _ O) by (left; reflexivity). apply Sub. auto.
  - change (str_eqb (lit "initialize") (lit "parse")) with false.
    change (str_eqb (lit "initialize") (lit "initialize")) with true. cbv iota. apply Sub. auto.
Qed.
