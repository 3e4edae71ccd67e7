(** * ShellFacts: what becomes of texts put into scripts. *)
From Coq Require Import Ascii String.
From Verif Require Import Strings StringsFacts Release SpecRelease ReleaseFacts Shell.
Open Scope list_scope.

(** Specification vocabulary: the chars that have no meaning between double quotes. *)
Definition tame (c : char) : bool := negb (mem_char c (lit """$`\")).
(** Names that git accepts for tags (git-check-ref-format). *)
Definition git_tag (t : str) : bool :=
  forallb (fun c => N.ltb 32 c && negb (N.eqb c 127) && negb (mem_char c (lit "~^:?*[\"))) t
  && negb (is_empty t) && negb (contains (lit "..") t) && negb (contains (lit "@{") t) && negb (contains (lit "//") t)
  && negb (contains (lit "/.") t) && negb (starts_with (lit ".") t) && negb (starts_with (lit "/") t)
  && negb (ends_with (lit ".") t) && negb (ends_with (lit "/") t) && negb (ends_with (lit ".lock") t)
  && negb (str_eqb t (lit "@")).

Lemma add_some p w : add p (Some w) = Some (p :: w).
Proof. reflexivity. Qed.
(** Between double quotes. *)
Lemma double_tame x : forallb tame x = true -> forall w ws cs r,
  shell_go Double (Some w) ws cs (x ++ r) = shell_go Double (Some (rev (plain x) ++ w)) ws cs r.
Proof.
  induction x as [|c x IH]; intros T w ws cs r; [reflexivity|].
  cbn [forallb] in T. apply andb_prop in T as [C T]. unfold tame in C. apply negb_true_iff in C.
  assert (forall d, In d (lit """$`\") -> ceq c d = false) as K.
  { intros d H. destruct (ceq c d) eqn:X; [|reflexivity]. apply N.eqb_eq in X. subst d. apply mem_char_iff in H. congruence. }
  cbn [app shell_go]. rewrite (K c_quot), (K c_tick), (K c_dollar), (K c_bslash) by (cbn; tauto).
  rewrite add_some, IH by exact T. cbn [plain map rev]. now rewrite <- app_assoc.
Qed.
(** Outside quotes. *)
Definition bare (c : char) : bool :=
  negb (mem_char c ([c_sp; c_tab; c_nl; c_semi; c_amp; c_pipe; c_quot; c_apos; c_tick; c_dollar; c_bslash] ++ unread)).
Lemma bare_text x : forallb bare x = true -> forall w ws cs r,
  shell_go Bare (Some w) ws cs (x ++ r) = shell_go Bare (Some (rev (plain x) ++ w)) ws cs r.
Proof.
  induction x as [|c x IH]; intros T w ws cs r; [reflexivity|].
  cbn [forallb] in T. apply andb_prop in T as [C T]. unfold bare in C. apply negb_true_iff in C.
  unfold mem_char in C. rewrite existsb_app in C. apply orb_false_iff in C as [C U].
  assert (forall d, In d [c_sp; c_tab; c_nl; c_semi; c_amp; c_pipe; c_quot; c_apos; c_tick; c_dollar; c_bslash] -> ceq c d = false) as K.
  { intros d H. destruct (ceq c d) eqn:X; [|reflexivity]. apply N.eqb_eq in X. subst d. apply mem_char_iff in H. unfold mem_char in H. congruence. }
  cbn [app shell_go mem_char existsb].
  rewrite (K c_sp), (K c_tab), (K c_nl), (K c_semi), (K c_amp), (K c_pipe), (K c_quot), (K c_apos), (K c_tick), (K c_dollar), (K c_bslash) by (cbn; tauto).
  fold (mem_char c unread). unfold mem_char. rewrite U. cbn [orb]. rewrite add_some, IH by exact T. cbn [plain map rev]. now rewrite <- app_assoc.
Qed.
Lemma text_plain s : text_of (plain s) = Some s.
Proof. unfold plain, text_of. induction s as [|c s IH]; [reflexivity|]. cbn [map fold_right]. now rewrite IH. Qed.

Lemma display_go x r : forallb tame x = true ->
  shell (display_changelog (x ++ r)) = shell_go Double (Some (rev (plain x))) [plain (lit "echo")] [] (r ++ [c_quot]).
Proof.
  intros T. unfold shell, display_changelog. rewrite <- app_assoc.
  change (lit "echo """ ++ x ++ r ++ lit """") with (lit "echo " ++ [c_quot] ++ x ++ r ++ [c_quot]).
  transitivity (shell_go Double (Some []) [plain (lit "echo")] [] (x ++ r ++ [c_quot])); [reflexivity|].
  rewrite double_tame by exact T. now rewrite app_nil_r.
Qed.

Lemma echo_option_iff s : echo_option s = true <->
  exists r, r <> [] /\ s = c_minus :: r /\ forall d, In d r -> In d (lit "neE").
Proof.
  unfold echo_option. destruct s as [|c [|x r]].
  - split; [discriminate|intros (r & _ & E & _); discriminate E].
  - split; [discriminate|]. intros (r & N & E & _). injection E as -> <-. now elim N.
  - rewrite andb_true_iff, forallb_forall. split.
    + intros [C F]. apply N.eqb_eq in C. subst c. exists (x :: r). split; [easy|split; [easy|]].
      intros d D. now apply mem_char_iff, F.
    + intros (r' & _ & E & F). injection E as -> <-. split; [apply ceq_refl|]. intros d D. now apply mem_char_iff, F.
Qed.
Theorem changelog_printed content : forallb tame content = true ->
  shell (display_changelog content) = Some [[plain (lit "echo"); plain content]] /\
  (echoes [plain (lit "echo"); plain content] = Some (content ++ [c_nl]) <->
   ~ exists r, r <> [] /\ content = c_minus :: r /\ forall d, In d r -> In d (lit "neE")).
Proof.
  intros T. split.
  - rewrite <- (app_nil_r content) at 1. rewrite display_go by exact T. cbn [app shell_go]. change (ceq c_quot c_quot) with true.
    cbv iota. unfold command_end, close. cbn [rev app]. now rewrite rev_involutive.
  - unfold echoes. rewrite !text_plain. change (str_eqb (lit "echo") (lit "echo")) with true. cbn [andb].
    rewrite <- echo_option_iff. destruct (echo_option content); cbn [negb]; split; intros H; congruence.
Qed.

Lemma tick_text x : ~ In c_tick x -> forall b acc w ws cs r,
  shell_go (Tick b acc) w ws cs (x ++ c_tick :: r) = shell_go (back b) (add (Run (rev acc ++ x)) w) ws cs r.
Proof.
  induction x as [|c x IH]; intros N b acc w ws cs r.
  - cbn [app shell_go]. rewrite ceq_refl. now rewrite app_nil_r.
  - cbn [app shell_go]. assert (ceq c c_tick = false) as -> by (apply ceq_neq; intros ->; apply N; now left).
    rewrite IH by (intros K; apply N; now right). cbn [rev]. now rewrite <- app_assoc.
Qed.
Theorem changelog_runs a x b : forallb tame a = true -> ~ In c_tick x -> forallb tame b = true ->
  shell (display_changelog (a ++ [c_tick] ++ x ++ [c_tick] ++ b)) = Some [[plain (lit "echo"); plain a ++ Run x :: plain b]].
Proof.
  intros A X B. rewrite display_go by exact A. rewrite <- app_assoc. cbn [app shell_go].
  change (ceq c_tick c_quot) with false. change (ceq c_tick c_tick) with true. cbv iota.
  rewrite <- app_assoc. cbn [app]. rewrite tick_text by exact X. cbn [rev app back].
  rewrite add_some, double_tame by exact B. cbn [shell_go]. change (ceq c_quot c_quot) with true. cbv iota.
  unfold command_end, close. cbn [rev app]. rewrite rev_app_distr, rev_involutive. cbn [rev]. rewrite rev_involutive, <- app_assoc. reflexivity.
Qed.
Theorem changelog_injects x : x <> [] -> forallb bare x = true ->
  shell (display_changelog (lit """;" ++ x ++ lit ";""")) = Some [[plain (lit "echo"); []]; [plain x]; [[]]].
Proof.
  intros N B. destruct x as [|c x]; [easy|]. cbn [forallb] in B. pose proof B as B0. apply andb_prop in B as [C B].
  unfold shell, display_changelog.
  change (lit "echo """ ++ (lit """;" ++ (c :: x) ++ lit ";""") ++ lit """") with
    (lit "echo """";" ++ ((c :: x) ++ lit ";""") ++ lit """").
  rewrite <- (app_assoc (c :: x)).
  transitivity (shell_go Bare None [] [[plain (lit "echo"); []]] ((c :: x) ++ lit ";""" ++ lit """")); [reflexivity|].
  pose proof (bare_text [c] ltac:(cbn [forallb]; now rewrite C)) as G.
  assert (shell_go Bare None [] [[plain (lit "echo"); []]] ((c :: x) ++ lit ";""" ++ lit """") =
          shell_go Bare (Some []) [] [[plain (lit "echo"); []]] ((c :: x) ++ lit ";""" ++ lit """")) as ->.
  { specialize (G [] [] [[plain (lit "echo"); []]] (x ++ lit ";""" ++ lit """")). revert G.
    generalize (x ++ lit ";""" ++ lit """"). intros y. cbn [app shell_go]. unfold bare in C. apply negb_true_iff in C.
    unfold mem_char in C. rewrite existsb_app in C. apply orb_false_iff in C as [C U].
    assert (forall d, In d [c_sp; c_tab; c_nl; c_semi; c_amp; c_pipe; c_quot; c_apos; c_tick; c_dollar; c_bslash] -> ceq c d = false) as K.
    { intros d H. destruct (ceq c d) eqn:X; [|reflexivity]. apply N.eqb_eq in X. subst d. apply mem_char_iff in H. unfold mem_char in H. congruence. }
    cbn [mem_char existsb].
    rewrite (K c_sp), (K c_tab), (K c_nl), (K c_semi), (K c_amp), (K c_pipe), (K c_quot), (K c_apos), (K c_tick), (K c_dollar), (K c_bslash) by (cbn; tauto).
    reflexivity. }
  rewrite bare_text by exact B0. rewrite app_nil_r.
  transitivity (Some (rev (command_end (Some []) [] (command_end (Some (rev (plain (c :: x)))) [] [[plain (lit "echo"); []]])))); [reflexivity|].
  unfold command_end, close. rewrite rev_involutive. reflexivity.
Qed.

Lemma paren_text x : ~ In c_rpar x -> forall b acc w ws cs r,
  shell_go (Paren b acc) w ws cs (x ++ c_rpar :: r) = shell_go (back b) (add (Run (rev acc ++ x)) w) ws cs r.
Proof.
  induction x as [|c x IH]; intros N b acc w ws cs r.
  - cbn [app shell_go]. rewrite ceq_refl. now rewrite app_nil_r.
  - cbn [app shell_go]. assert (ceq c c_rpar = false) as -> by (apply ceq_neq; intros ->; apply N; now left).
    rewrite IH by (intros K; apply N; now right). cbn [rev]. now rewrite <- app_assoc.
Qed.
Theorem changelog_substitutes a x b : forallb tame a = true -> ~ In c_rpar x -> forallb tame b = true ->
  shell (display_changelog (a ++ [c_dollar; c_lpar] ++ x ++ [c_rpar] ++ b)) = Some [[plain (lit "echo"); plain a ++ Run x :: plain b]].
Proof.
  intros A X B. rewrite display_go by exact A. rewrite <- app_assoc. cbn [app shell_go].
  change (ceq c_dollar c_quot) with false. change (ceq c_dollar c_tick) with false. change (ceq c_dollar c_dollar) with true.
  change (ceq c_lpar c_lpar) with true. cbv iota.
  rewrite <- app_assoc. cbn [app]. rewrite paren_text by exact X. cbn [rev app back].
  rewrite add_some, double_tame by exact B. cbn [shell_go]. change (ceq c_quot c_quot) with true. cbv iota.
  unfold command_end, close. cbn [rev app]. rewrite rev_app_distr, rev_involutive. cbn [rev]. rewrite rev_involutive, <- app_assoc. reflexivity.
Qed.

(** Specification vocabulary: a backslash in front of every char with a meaning. *)
Definition guard (s : str) : str := flat_map (fun c => if tame c then [c] else [c_bslash; c]) s.
Lemma double_guard x : forall w ws cs r,
  shell_go Double (Some w) ws cs (guard x ++ r) = shell_go Double (Some (rev (plain x) ++ w)) ws cs r.
Proof.
  induction x as [|c x IH]; intros w ws cs r; [reflexivity|]. unfold guard. cbn [flat_map]. fold (guard x).
  rewrite <- app_assoc. replace (rev (plain (c :: x)) ++ w) with (rev (plain x) ++ Self c :: w)
    by (cbn [plain map rev]; now rewrite <- app_assoc).
  destruct (tame c) eqn:T.
  - rewrite (double_tame [c]) by (cbn [forallb]; now rewrite T). apply IH.
  - unfold tame in T. apply negb_false_iff, mem_char_iff in T.
    transitivity (shell_go Double (add (Self c) (Some w)) ws cs (guard x ++ r)); [|rewrite add_some; apply IH].
    destruct T as [<-|[<-|[<-|[<-|[]]]]]; reflexivity.
Qed.
Theorem changelog_guarded content :
  shell (display_changelog (guard content)) = Some [[plain (lit "echo"); plain content]].
Proof.
  unfold shell, display_changelog.
  transitivity (shell_go Double (Some []) [plain (lit "echo")] [] (guard content ++ [c_quot])); [reflexivity|].
  rewrite double_guard, app_nil_r. cbn [shell_go]. change (ceq c_quot c_quot) with true. cbv iota.
  unfold command_end, close. cbn [rev app]. now rewrite rev_involutive.
Qed.

(** Between single quotes. *)
Lemma single_text x : ~ In c_apos x -> forall w ws cs r,
  shell_go Single (Some w) ws cs (x ++ r) = shell_go Single (Some (rev (plain x) ++ w)) ws cs r.
Proof.
  induction x as [|c x IH]; intros N w ws cs r; [reflexivity|].
  cbn [app shell_go]. assert (ceq c c_apos = false) as -> by (apply ceq_neq; intros ->; apply N; now left).
  rewrite add_some, IH by (intros K; apply N; now right). cbn [plain map rev]. now rewrite <- app_assoc.
Qed.

(** Quotes vanish. *)
Theorem changelog_quotes a x b : forallb tame a = true -> forallb bare x = true -> forallb tame b = true ->
  shell (display_changelog (a ++ [c_quot] ++ x ++ [c_quot] ++ b)) = Some [[plain (lit "echo"); plain (a ++ x ++ b)]].
Proof.
  intros A X B. rewrite display_go by exact A. rewrite <- app_assoc. cbn [app shell_go].
  change (ceq c_quot c_quot) with true. cbv iota. rewrite <- app_assoc. cbn [app]. rewrite bare_text by exact X.
  transitivity (shell_go Double (Some (rev (plain x) ++ rev (plain a))) [plain (lit "echo")] [] (b ++ [c_quot])); [reflexivity|].
  rewrite double_tame by exact B. cbn [shell_go]. change (ceq c_quot c_quot) with true. cbv iota.
  unfold command_end, close. cbn [rev app]. rewrite !rev_app_distr, !rev_involutive. unfold plain.
  now rewrite !map_app, <- app_assoc.
Qed.
Theorem tag_quotes a x b : forallb bare a = true -> ~ In c_apos x -> forallb bare b = true ->
  shell (rename (a ++ [c_apos] ++ x ++ [c_apos] ++ b)) = Some [map plain [lit "mv"; lit "release/"; lit "smd-" ++ (a ++ x ++ b) ++ lit "/"]].
Proof.
  intros A X B. unfold shell.
  transitivity (shell_go Bare (Some (rev (plain (lit "smd-")))) (rev (map plain [lit "mv"; lit "release/"])) []
    ((a ++ [c_apos] ++ x ++ [c_apos] ++ b) ++ lit "/")); [reflexivity|].
  rewrite <- !app_assoc. rewrite bare_text by exact A. cbn [app].
  transitivity (shell_go Single (Some (rev (plain a) ++ rev (plain (lit "smd-")))) (rev (map plain [lit "mv"; lit "release/"])) []
    (x ++ c_apos :: b ++ lit "/")); [reflexivity|].
  rewrite single_text by exact X.
  transitivity (shell_go Bare (Some (rev (plain x) ++ rev (plain a) ++ rev (plain (lit "smd-")))) (rev (map plain [lit "mv"; lit "release/"])) []
    (b ++ lit "/")); [reflexivity|].
  rewrite bare_text by exact B.
  assert (plain (lit "smd-" ++ a ++ x ++ b ++ lit "/") =
    rev (Self 47%N :: rev (plain b) ++ rev (plain x) ++ rev (plain a) ++ rev (plain (lit "smd-")))) as E.
  { cbn [rev]. rewrite !rev_app_distr, !rev_involutive. unfold plain. rewrite !map_app, <- !app_assoc. reflexivity. }
  cbn [map]. rewrite E. reflexivity.
Qed.

(** Versions are single words. *)
Lemma version_bare v : version_text v -> forallb bare v = true.
Proof.
  intros [_ F]. rewrite forallb_forall in *. intros c I. specialize (F c I). unfold bare. apply negb_true_iff.
  destruct (mem_char c _) eqn:M; [|reflexivity]. apply mem_char_iff in M. exfalso. revert F.
  cbn in M. repeat (destruct M as [<-|M]; [vm_compute; discriminate|]). destruct M.
Qed.
Theorem version_words v : version_text v ->
  shell (rename v) = Some [map plain [lit "mv"; lit "release/"; lit "smd-" ++ v ++ lit "/"]] /\
  shell (package_deb v) = Some [map plain [lit "cargo-deb"; lit "--deb-revision="; lit "--strip"; lit "-p"; lit "smd"; lit "-v"; lit "-o";
    lit "smd-" ++ v ++ lit ".deb"]] /\
  shell (package_rpm v) = Some [map plain [lit "cargo"; lit "generate-rpm"; lit "-p"; lit "smd"; lit "-o";
    lit "smd-" ++ v ++ lit ".x86_64.rpm"]] /\
  shell (look_up v) = Some [map plain [lit "grep"; lit "-q"; lit """vers"":""" ++ v ++ lit """"]].
Proof.
  intros V. apply version_bare in V.
  assert (forall ws y, forallb bare y = true -> shell_go Bare (Some (rev (plain (lit "smd-")))) ws [] (v ++ y) =
    Some [rev (plain (lit "smd-" ++ v ++ y) :: ws)]) as G.
  { intros ws y Y. rewrite bare_text by exact V. rewrite <- (app_nil_r y) at 1. rewrite bare_text by exact Y. cbn [shell_go].
    unfold command_end, close. unfold plain. rewrite !map_app, !rev_app_distr, !rev_involutive, <- app_assoc. reflexivity. }
  split; [|split; [|split]]; unfold shell.
  - transitivity (shell_go Bare (Some (rev (plain (lit "smd-")))) (rev (map plain [lit "mv"; lit "release/"])) [] (v ++ lit "/")); [reflexivity|].
    now rewrite G.
  - transitivity (shell_go Bare (Some (rev (plain (lit "smd-"))))
      (rev (map plain [lit "cargo-deb"; lit "--deb-revision="; lit "--strip"; lit "-p"; lit "smd"; lit "-v"; lit "-o"])) [] (v ++ lit ".deb")); [reflexivity|].
    now rewrite G.
  - transitivity (shell_go Bare (Some (rev (plain (lit "smd-"))))
      (rev (map plain [lit "cargo"; lit "generate-rpm"; lit "-p"; lit "smd"; lit "-o"])) [] (v ++ lit ".x86_64.rpm")); [reflexivity|].
    now rewrite G.
  - transitivity (shell_go Single (Some (rev (plain (lit """vers"":""")))) (rev (map plain [lit "grep"; lit "-q"])) [] (v ++ lit """'")); [reflexivity|].
    rewrite single_text.
    2:{ intros K. rewrite forallb_forall in V. specialize (V _ K). discriminate V. }
    transitivity (Some [rev (rev (Self c_quot :: rev (plain v) ++ rev (plain (lit """vers"":"""))) :: rev (map plain [lit "grep"; lit "-q"]))]); [reflexivity|].
    assert (plain (lit """vers"":""" ++ v ++ lit """") = rev (Self c_quot :: rev (plain v) ++ rev (plain (lit """vers"":"""))))
      as <-; [|reflexivity].
    cbn [rev]. rewrite rev_app_distr, !rev_involutive, <- app_assoc. unfold plain. now rewrite !map_app.
Qed.
Lemma tag_injects : exists tag, git_tag tag = true /\ trigger tag = true /\
  shell (rename (release_version tag)) = Some [map plain [lit "mv"; lit "release/"; lit "smd-1.0.0"]; [plain (lit "id")]; [plain (lit "/")]].
Proof. exists (lit "v1.0.0;id;"). vm_compute. auto. Qed.

(** The passphrase. *)
Definition gpg_import : list word :=
  map plain [lit "gpg"; lit "--pinentry-mode=loopback"; lit "--passphrase-fd"; lit "0"; lit "--import"; lit "private.key"].
Lemma import_go x r : forallb tame x = true ->
  shell (import_key (x ++ r)) = shell_go Double (Some (rev (plain x))) [plain (lit "echo")] []
    (r ++ lit """ | gpg --pinentry-mode=loopback \" ++ [c_nl] ++ lit "  --passphrase-fd 0 --import private.key").
Proof.
  intros T. unfold shell, import_key. rewrite <- app_assoc.
  transitivity (shell_go Double (Some []) [plain (lit "echo")] []
    (x ++ r ++ lit """ | gpg --pinentry-mode=loopback \" ++ [c_nl] ++ lit "  --passphrase-fd 0 --import private.key")); [reflexivity|].
  rewrite double_tame by exact T. now rewrite app_nil_r.
Qed.
Lemma import_end w : shell_go Double (Some w) [plain (lit "echo")] []
    (lit """ | gpg --pinentry-mode=loopback \" ++ [c_nl] ++ lit "  --passphrase-fd 0 --import private.key") =
  Some [[plain (lit "echo"); rev w]; gpg_import].
Proof. reflexivity. Qed.
Theorem passphrase_given pass : forallb tame pass = true ->
  shell (import_key pass) = Some [[plain (lit "echo"); plain pass]; gpg_import].
Proof.
  intros T. rewrite <- (app_nil_r pass) at 1. rewrite import_go by exact T. cbn [app].
  rewrite import_end. now rewrite rev_involutive.
Qed.
Theorem passphrase_expanded a b : forallb tame a = true -> forallb tame b = true -> starts_with [c_lpar] b = false ->
  shell (import_key (a ++ [c_dollar] ++ b)) = Some [[plain (lit "echo"); plain a ++ Param :: plain b]; gpg_import].
Proof.
  intros A B P. rewrite import_go by exact A. cbn [app].
  assert (forall y w ws cs, shell_go Double w ws cs (c_dollar :: b ++ c_quot :: y) = shell_go Double (add Param w) ws cs (b ++ c_quot :: y)) as G.
  { intros y w ws cs. cbn [shell_go]. change (ceq c_dollar c_quot) with false. change (ceq c_dollar c_tick) with false.
    change (ceq c_dollar c_dollar) with true. cbv iota. destruct b as [|d b]; [reflexivity|]. cbn [app].
    assert (ceq d c_lpar = false) as ->; [|reflexivity]. cbn [starts_with] in P. rewrite andb_true_r in P.
    apply ceq_neq. intros ->. now rewrite ceq_refl in P. }
  change (lit """ | gpg --pinentry-mode=loopback \") with (c_quot :: lit " | gpg --pinentry-mode=loopback \"). cbn [app].
  rewrite G, add_some, double_tame by exact B.
  change (c_quot :: lit " | gpg --pinentry-mode=loopback \" ++ c_nl :: lit "  --passphrase-fd 0 --import private.key") with
    (lit """ | gpg --pinentry-mode=loopback \" ++ [c_nl] ++ lit "  --passphrase-fd 0 --import private.key").
  rewrite import_end. rewrite rev_app_distr, rev_involutive. cbn [rev]. rewrite rev_involutive, <- app_assoc. reflexivity.
Qed.

Lemma shell_ex :
  forallb tame (lit "## [0.2.0] - Don't panic; it's fixed & done") = true /\
  echo_option (lit "-n") = true /\
  shell (display_changelog (lit "- Escape `rm -r /` in code")) =
    Some [[plain (lit "echo"); plain (lit "- Escape ") ++ Run (lit "rm -r /") :: plain (lit " in code")]].
Proof. vm_compute. auto. Qed.
