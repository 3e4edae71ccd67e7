(** * PlatformFacts: what the packages of the platforms say. *)
From Coq Require Import Ascii String.
From Verif Require Import Strings StringsFacts Release SpecRelease ReleaseFacts ReleaseProps Shell ShellFacts Platform SpecJson.
Open Scope list_scope.

(** ** The line of the script *)
Lemma export_go v r : forallb tame v = true ->
  shell (lit "export version=""" ++ v ++ r) =
  shell_go Double (Some (rev (plain v) ++ rev (plain (lit "version=")))) [plain (lit "export")] [] r.
Proof.
  intros T. unfold shell.
  transitivity (shell_go Double (Some (rev (plain (lit "version=")))) [plain (lit "export")] [] (v ++ r)); [reflexivity|].
  now rewrite double_tame.
Qed.
Lemma export_read w : exported w = match shell (export_line w) with
  | Some [[e; x]] => match text_of e, text_of x with
      | Some n, Some a => if str_eqb n (lit "export") then strip_prefix (lit "version=") a else None
      | _, _ => None end
  | _ => None end.
Proof. reflexivity. Qed.
Lemma export_word v : match text_of (plain (lit "export")), text_of (plain (lit "version=" ++ v)) with
      | Some n, Some a => if str_eqb n (lit "export") then strip_prefix (lit "version=") a else None
      | _, _ => None end = Some v.
Proof. rewrite !text_plain. reflexivity. Qed.

Lemma exported_tame v : forallb tame v = true -> exported v = Some v.
Proof.
  intros T. rewrite export_read. unfold export_line. rewrite export_go by exact T.
  transitivity (match Some [[plain (lit "export"); rev (rev (plain v) ++ rev (plain (lit "version=")))]] with
    | Some [[e; x]] => match text_of e, text_of x with
      | Some n, Some a => if str_eqb n (lit "export") then strip_prefix (lit "version=") a else None
      | _, _ => None end
    | _ => None end); [reflexivity|].
  rewrite rev_app_distr, !rev_involutive. unfold plain at 2 3. rewrite <- map_app. exact (export_word v).
Qed.
Lemma exported_quotes a x b : forallb tame a = true -> forallb bare x = true -> forallb tame b = true ->
  exported (a ++ [c_quot] ++ x ++ [c_quot] ++ b) = Some (a ++ x ++ b).
Proof.
  intros A X B. rewrite export_read. unfold export_line. rewrite <- !app_assoc, export_go by exact A.
  cbn [app]. change (shell_go Double ?w ?ws ?cs (c_quot :: ?r)) with (shell_go Bare w ws cs r).
  rewrite bare_text by exact X.
  change (shell_go Bare (Some ?w) ?ws ?cs (c_quot :: ?r)) with (shell_go Double (Some w) ws cs r).
  rewrite double_tame by exact B.
  transitivity (match Some [[plain (lit "export"); rev (rev (plain b) ++ rev (plain x) ++ rev (plain a) ++ rev (plain (lit "version=")))]] with
    | Some [[e; y]] => match text_of e, text_of y with
      | Some n, Some t => if str_eqb n (lit "export") then strip_prefix (lit "version=") t else None
      | _, _ => None end
    | _ => None end); [reflexivity|].
  rewrite !rev_app_distr, !rev_involutive. unfold plain at 2 3 4 5. rewrite <- !map_app, <- !app_assoc. exact (export_word (a ++ x ++ b)).
Qed.

(** ** The tokens *)
Lemma tokens_app A : forall p ts X, tokens p A = Some ts ->
  tokens p (A ++ X) = match tokens Outside X with Some us => Some (ts ++ us) | None => None end.
Proof.
  induction A as [|c A IH]; intros p ts X H.
  - cbn in H. destruct p; [|discriminate..]. injection H as <-. cbn. now destruct (tokens Outside X).
  - cbn [app tokens] in *.
    assert (forall t, give t (tokens Outside A) = Some ts ->
      give t (tokens Outside (A ++ X)) = match tokens Outside X with Some us => Some (ts ++ us) | None => None end) as G.
    { intros t G. destruct (tokens Outside A) as [ts'|] eqn:E; [|discriminate]. cbn in G. injection G as <-.
      rewrite (IH _ _ X E). now destruct (tokens Outside X). }
    destruct p.
    + destruct (blank c); [now apply IH|]. destruct (ceq c c_quot); [now apply IH|now apply G].
    + destruct (ceq c c_quot); [now apply G|]. destruct (ceq c c_bslash); [now apply IH|].
      destruct (N.ltb c 32); [discriminate|now apply IH].
    + destruct (escaped c); [now apply IH|discriminate].
Qed.
Definition letter (c : char) : bool := negb (ceq c c_quot) && negb (ceq c c_bslash) && negb (N.ltb c 32).
Lemma tokens_text v : forallb letter v = true -> forall r X,
  tokens (Inside r) (v ++ X) = tokens (Inside (rev v ++ r)) X.
Proof.
  induction v as [|c v IH]; intros F r X; [reflexivity|]. cbn [forallb] in F. apply andb_prop in F as [C F].
  unfold letter in C. apply andb_prop in C as [C N]. apply andb_prop in C as [Q S].
  apply negb_true_iff in Q, S, N. cbn [app tokens]. rewrite Q, S, N, IH by exact F. cbn [rev]. now rewrite <- app_assoc.
Qed.
Lemma tokens_quoted v X : forallb letter v = true ->
  tokens Outside (c_quot :: v ++ c_quot :: X) = give (Quoted v) (tokens Outside X).
Proof.
  intros F. change (tokens Outside (c_quot :: ?s)) with (tokens (Inside []) s). rewrite tokens_text by exact F.
  change (tokens (Inside ?r) (c_quot :: X)) with (give (Quoted (rev r)) (tokens Outside X)).
  now rewrite app_nil_r, rev_involutive.
Qed.

(** ** The text and what it says *)
Definition upto (b : build) : str := envsubst (environment b []) (firstn 2 template ++ flat_map (fun l => l ++ [c_nl]) (firstn 1 (skipn 1 template_lines)) ++ lit "  ""version"": ").
Definition behind (b : build) : str := envsubst (environment b []) (lit "," ++ [c_nl] ++ flat_map (fun l => l ++ [c_nl]) (skipn 3 template_lines)).
Definition published (b : build) : Prop := In b matrix /\ npm_publish b = true.
Lemma published_cases (P : build -> Prop) :
  Forall P (filter npm_publish matrix) -> forall b, published b -> P b.
Proof. intros F b [I N]. rewrite Forall_forall in F. apply F, filter_In. auto. Qed.

Lemma package_text v : forall b, published b ->
  envsubst (environment b v) template = upto b ++ c_quot :: v ++ c_quot :: behind b.
Proof.
  apply published_cases. repeat (apply Forall_cons; [vm_compute; reflexivity|]). constructor.
Qed.

Definition head_tokens (b : build) : list token :=
  [Sign c_lbrace; Quoted (lit "name"); Sign c_colon; Quoted (node_pkg b); Sign 44%N; Quoted (lit "version"); Sign c_colon].
Definition object (b : build) (v : str) (o : json) : Prop :=
  has o "name" (Text (node_pkg b)) /\ has o "version" (Text v) /\
  has o "os" (List [Text (field 0 (name b))]) /\ has o "cpu" (List [Text (field 1 (name b))]).
Lemma package_read v : forallb letter v = true -> forall b, published b ->
  exists o, read_json (envsubst (environment b v) template) = Some o /\ object b v o.
Proof.
  intros F b P. rewrite package_text by exact P.
  assert (tokens Outside (upto b) = Some (head_tokens b) /\ exists us, tokens Outside (behind b) = Some us /\
    exists o, (let ts := head_tokens b ++ Quoted v :: us in
       match a_value (2 * length ts) ts with Some (x, []) => Some x | _ => None end) = Some o /\ object b v o) as (U & us & B & o & R & O).
  { revert b P. apply published_cases.
    repeat (apply Forall_cons; [split; [vm_compute; reflexivity|];
      eexists; split; [vm_compute; reflexivity|]; eexists; split; [vm_compute; reflexivity|];
      repeat split; vm_compute; reflexivity|]). constructor. }
  exists o. split; [|exact O]. unfold read_json. rewrite (tokens_app _ _ _ _ U), tokens_quoted, B by exact F. exact R.
Qed.

Lemma storable_letter v : storable v -> forallb letter v = true.
Proof.
  intros S. apply forallb_forall. intros c I. destruct (S c I) as [L N]. unfold letter.
  apply andb_true_intro. split; [apply andb_true_intro; split|]; apply negb_true_iff.
  - apply N.eqb_neq. intros ->. apply N. cbn. auto.
  - apply N.eqb_neq. intros ->. apply N. cbn. auto.
  - now apply N.ltb_ge.
Qed.
Lemma storable_tame v : storable v -> forallb tame v = true.
Proof.
  intros S. apply forallb_forall. intros c I. destruct (S c I) as [L N]. unfold tame. apply negb_true_iff.
  destruct (mem_char c _) eqn:M; [|reflexivity]. apply mem_char_iff in M. exfalso. apply N. cbn in *. tauto.
Qed.

Lemma package_good tag : storable (release_version tag) -> forall b, published b ->
  exists s, package_json b tag = Some s /\ exists o, read_json s = Some o /\ object b (release_version tag) o.
Proof.
  intros S b P. exists (envsubst (environment b (release_version tag)) template). split.
  { unfold package_json. pose proof (exported_tame _ (storable_tame _ S)) as E. now rewrite E. }
  exact (package_read _ (storable_letter _ S) b P).
Qed.
Lemma published_row : forall b, published b -> In (field 0 (name b), field 1 (name b), node_pkg b) platforms.
Proof.
  apply published_cases. repeat (apply Forall_cons; [vm_compute; tauto|]). constructor.
Qed.
Theorem package_describes tag b : storable (release_version tag) -> In b matrix -> npm_publish b = true ->
  exists s p a, package_json b tag = Some s /\ In (p, a, node_pkg b) platforms /\
    describes s (node_pkg b) (release_version tag) p a.
Proof.
  intros S I N. destruct (package_good tag S b (conj I N)) as (s & E & o & R & O).
  exists s, (field 0 (name b)), (field 1 (name b)). split; [exact E|]. split; [now apply published_row|].
  exists o. split; [exact R|exact O].
Qed.
Lemma published_rows : forall p a n, In (p, a, n) platforms ->
  exists b, published b /\ field 0 (name b) = p /\ field 1 (name b) = a /\ node_pkg b = n.
Proof.
  intros p a n I.
  assert (In (p, a, n) (map (fun b => (field 0 (name b), field 1 (name b), node_pkg b)) (filter npm_publish matrix))) as J.
  { assert (forall r, In r platforms -> In r (map (fun b => (field 0 (name b), field 1 (name b), node_pkg b)) (filter npm_publish matrix))) as G.
    { apply Forall_forall. repeat (apply Forall_cons; [vm_compute; tauto|]). constructor. }
    exact (G _ I). }
  apply in_map_iff in J as (b & E & J). exists b. injection E as <- <- <-. split; [|auto]. now apply filter_In in J.
Qed.
Theorem package_all tag p a n : storable (release_version tag) -> In (p, a, n) platforms ->
  exists b s, In b matrix /\ npm_publish b = true /\ package_json b tag = Some s /\
    describes s n (release_version tag) p a.
Proof.
  intros S I. destruct (published_rows _ _ _ I) as (b & P & <- & <- & <-).
  destruct (package_good tag S b P) as (s & E & o & R & O). destruct P as [J N].
  exists b, s. split; [exact J|]. split; [exact N|]. split; [exact E|]. exists o. split; [exact R|exact O].
Qed.

(** The versions of semver.org. *)
Lemma version_storable v : version_text v -> storable v.
Proof.
  intros V c I. pose proof (version_bare v V) as B. destruct V as [_ F].
  rewrite forallb_forall in F. rewrite forallb_forall in B. specialize (F c I). specialize (B c I). split.
  - destruct (N.leb_spec 32 c) as [L|L]; [exact L|]. exfalso. revert F.
    assert (In c (map N.of_nat (seq 0 32))) as K.
    { apply in_map_iff. exists (N.to_nat c). split; [apply N2Nat.id|]. apply in_seq. lia. }
    cbn in K. repeat (destruct K as [<-|K]; [vm_compute; discriminate|]). destruct K.
  - intros K. unfold bare in B. apply negb_true_iff in B.
    assert (mem_char c ([c_sp; c_tab; c_nl; c_semi; c_amp; c_pipe; c_quot; c_apos; c_tick; c_dollar; c_bslash] ++ unread) = true) as M.
    { apply mem_char_iff. apply in_or_app. left. cbn in *. tauto. }
    congruence.
Qed.

(** ** Quotes in the version *)
Theorem package_quotes a x b : forallb tame a = true -> forallb bare x = true -> forallb tame b = true ->
  forallb letter (a ++ x ++ b) = true -> forall tag, release_version tag = a ++ [c_quot] ++ x ++ [c_quot] ++ b ->
  forall d, published d -> exists s o, package_json d tag = Some s /\ read_json s = Some o /\ has o "version" (Text (a ++ x ++ b)).
Proof.
  intros A X B L tag V d P. destruct (package_read _ L d P) as (o & R & O).
  exists (envsubst (environment d (a ++ x ++ b)) template), o. split; [|split; [exact R|apply O]].
  unfold package_json. rewrite V. pose proof (exported_quotes a x b A X B) as E. now rewrite E.
Qed.

(** ** Where the packages are installed *)
Lemma has_unique o k v w : has o k v -> has o k w -> v = w.
Proof. unfold has. destruct o; try contradiction. intros H K. rewrite H in K. now injection K. Qed.
Lemma package_installs tag : storable (release_version tag) -> forall b, published b ->
  exists s, package_json b tag = Some s /\
    forall m, installs s m <-> platform m = field 0 (name b) /\ arch m = field 1 (name b).
Proof.
  intros S b P. destruct (package_good tag S b P) as (s & E & o & R & N & V & O & C).
  exists s. split; [exact E|]. intros m. split.
  - intros (o' & ps & cs & R' & O' & C' & I & J). rewrite R in R'. injection R' as <-.
    pose proof (has_unique _ _ _ _ O O') as X. injection X as <-. pose proof (has_unique _ _ _ _ C C') as X. injection X as <-.
    destruct I as [I|[]]. destruct J as [J|[]]. injection I as ->. injection J as ->. auto.
  - intros [PM AM]. exists o, [Text (field 0 (name b))], [Text (field 1 (name b))]. rewrite PM, AM.
    split; [exact R|]. split; [exact O|]. split; [exact C|]. split; left; reflexivity.
Qed.

Lemma builds_matrix b t : In (b, t) builds -> In b matrix.
Proof. intros I. exact (in_combine_l _ _ _ _ I). Qed.
Lemma builds_run : forall b t, In (b, t) builds -> npm_publish b = true -> forall l,
  real (System (field 0 (name b)) (field 1 (name b)) l) ->
  (runs_on t (System (field 0 (name b)) (field 1 (name b)) l) <-> l <> Musl).
Proof.
  assert (Forall (fun p => npm_publish (fst p) = true -> forall l,
    real (System (field 0 (name (fst p))) (field 1 (name (fst p))) l) ->
    (runs_on (snd p) (System (field 0 (name (fst p))) (field 1 (name (fst p))) l) <-> l <> Musl)) builds) as G.
  { unfold builds. cbn [matrix targets combine].
    repeat (apply Forall_cons; [intros N l;
      first [discriminate N
            |clear N; destruct l; intros [R1 R2]; split; intros H;
             first [discriminate
                   |left; reflexivity
                   |exfalso; specialize (R2 ltac:(vm_compute; discriminate)); discriminate R2
                   |exfalso; apply (R1 eq_refl); reflexivity
                   |exfalso; apply H; reflexivity
                   |exfalso; revert H; vm_compute; intros [H|[]]; discriminate H]]|]).
    constructor. }
  intros b t I. rewrite Forall_forall in G. exact (G (b, t) I).
Qed.

(** On every system with a package that package is installed and no other, and elsewhere none. *)
Theorem package_only tag m : storable (release_version tag) -> forall n,
  (exists b s, In b matrix /\ npm_publish b = true /\ node_pkg b = n /\ package_json b tag = Some s /\ installs s m)
  <-> In (platform m, arch m, n) platforms.
Proof.
  intros S n. split.
  - intros (b & s & I & N & E & J & K). destruct (package_installs tag S b (conj I N)) as (s' & J' & G).
    rewrite J in J'. injection J' as <-. apply G in K as [-> ->]. rewrite <- E. now apply published_row.
  - intros I. destruct (published_rows _ _ _ I) as (b & P & A & B & C).
    destruct (package_installs tag S b P) as (s & J & G). destruct P as [M N].
    exists b, s. repeat (split; [assumption|]). apply G. auto.
Qed.

(** The program runs there, unless the system has musl. *)
Theorem package_runs tag b t s m : storable (release_version tag) -> In (b, t) builds -> npm_publish b = true ->
  real m -> package_json b tag = Some s -> installs s m -> (runs_on t m <-> libc m <> Musl).
Proof.
  intros S I N R J K. destruct (package_installs tag S b (conj (builds_matrix b t I) N)) as (s' & J' & G).
  rewrite J in J'. injection J' as <-. apply G in K as [P A]. destruct m as [p a l]. cbn [platform arch libc] in *. subst p a.
  exact (builds_run b t I N l R).
Qed.
Lemma builds_complete : map fst builds = matrix.
Proof. reflexivity. Qed.

(** ** Versions *)
Lemma release_tag v : release_version (tag_of v) = v.
Proof. reflexivity. Qed.
Lemma read_storable v x : read_version v = Some x -> storable (release_version (tag_of v)).
Proof. intros R. rewrite release_tag. apply version_storable. now apply version_released in R as [R _]. Qed.

Theorem version_describes v x b : read_version v = Some x -> In b matrix -> npm_publish b = true ->
  exists s p a, package_json b (tag_of v) = Some s /\ In (p, a, node_pkg b) platforms /\ describes s (node_pkg b) v p a.
Proof. intros R. exact (package_describes (tag_of v) b (read_storable v x R)). Qed.
Theorem version_all v x p a n : read_version v = Some x -> In (p, a, n) platforms ->
  exists b s, In b matrix /\ npm_publish b = true /\ package_json b (tag_of v) = Some s /\ describes s n v p a.
Proof. intros R. exact (package_all (tag_of v) p a n (read_storable v x R)). Qed.
Theorem version_only v x m : read_version v = Some x -> forall n,
  (exists b s, In b matrix /\ npm_publish b = true /\ node_pkg b = n /\ package_json b (tag_of v) = Some s /\ installs s m)
  <-> In (platform m, arch m, n) platforms.
Proof. intros R. exact (package_only (tag_of v) m (read_storable v x R)). Qed.
Theorem version_runs v x b t s m : read_version v = Some x -> In (b, t) builds -> npm_publish b = true ->
  real m -> package_json b (tag_of v) = Some s -> installs s m -> libc m <> Musl -> runs_on t m.
Proof. intros R I N M J K. exact (proj2 (package_runs (tag_of v) b t s m (read_storable v x R) I N M J K)). Qed.
Lemma matrix_builds b : In b matrix -> exists t, In (b, t) builds.
Proof.
  rewrite <- builds_complete. intros I. apply in_map_iff in I as ([b' t] & E & I). cbn in E. subst b'. now exists t.
Qed.
Theorem version_musl v x a n : read_version v = Some x -> In (lit "linux", a, n) platforms ->
  exists b t s, In (b, t) builds /\ npm_publish b = true /\ node_pkg b = n /\ package_json b (tag_of v) = Some s /\
    installs s (System (lit "linux") a Musl) /\ real (System (lit "linux") a Musl) /\
    ~ runs_on t (System (lit "linux") a Musl).
Proof.
  intros R I. destruct (proj2 (version_only v x (System (lit "linux") a Musl) R n) I) as (b & s & M & N & E & J & K).
  destruct (matrix_builds b M) as [t T]. exists b, t, s.
  assert (real (System (lit "linux") a Musl)) as RL.
  { split; [discriminate|]. intros H. exfalso. now apply H. }
  repeat (split; [assumption|]). intros Q.
  now apply (proj1 (package_runs (tag_of v) b t s _ (read_storable v x R) T N RL J K) Q).
Qed.

(** For the examples: the template with its four places filled. *)
Definition dummy : build := {| name := []; os := Ubuntu; npm_publish := false; pypi_publish := false |}.
Definition template_for (n v p a : str) : str :=
  replace (lit "${node_pkg}") n (replace (lit "${version}") v (replace (lit "${node_os}") p (replace (lit "${node_arch}") a template))).
Lemma package_ex : (exists x, read_version (lit "0.2.0-rc.1") = Some x) /\
  package_json (nth 7 matrix dummy) (lit "v0.2.0-rc.1") = Some (template_for (lit "smd-windows-x64") (lit "0.2.0-rc.1") (lit "win32") (lit "x64")).
Proof. split; [eexists|]; vm_compute; reflexivity. Qed.
Lemma installs_ex : map fst builds = matrix /\
  runs_on "x86_64-unknown-linux-gnu" (System (lit "linux") (lit "x64") Glibc) /\ real (System (lit "win32") (lit "x64") Native) /\
  installs (template_for (lit "smd-linux-x64") (lit "1.0.0") (lit "linux") (lit "x64")) (System (lit "linux") (lit "x64") Musl).
Proof.
  split; [reflexivity|]. split; [left; reflexivity|]. split.
  - split; [intros _|reflexivity]. vm_compute. discriminate.
  - eexists. exists [Text (lit "linux")], [Text (lit "x64")]. split; [vm_compute; reflexivity|].
    split; [vm_compute; reflexivity|]. split; [vm_compute; reflexivity|]. split; left; reflexivity.
Qed.

(** The name of the program is that of the system. *)
Lemma program_row : forall b, published b -> forall p, p = field 0 (name b) ->
  (p = lit "win32" -> package_program b = lit "bin/smd.exe") /\ (p <> lit "win32" -> package_program b = lit "bin/smd").
Proof.
  apply (published_cases (fun b => forall p, p = field 0 (name b) ->
    (p = lit "win32" -> package_program b = lit "bin/smd.exe") /\ (p <> lit "win32" -> package_program b = lit "bin/smd"))).
  cbn [filter matrix npm_publish].
  repeat (apply Forall_cons; [intros p ->; split; intros H; first [reflexivity|discriminate H|exfalso; apply H; reflexivity]|]). constructor.
Qed.
Theorem version_program v x b s m : read_version v = Some x -> In b matrix -> npm_publish b = true ->
  package_json b (tag_of v) = Some s -> installs s m ->
  (platform m = lit "win32" -> package_program b = lit "bin/smd.exe") /\
  (platform m <> lit "win32" -> package_program b = lit "bin/smd").
Proof.
  intros R I N J K. destruct (package_installs (tag_of v) (read_storable v x R) b (conj I N)) as (s' & J' & G).
  rewrite J in J'. injection J' as <-. apply G in K as [P _]. exact (program_row b (conj I N) _ P).
Qed.
