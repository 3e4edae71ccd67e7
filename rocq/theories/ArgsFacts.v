(** * ArgsFacts: the argument --input. *)
From Coq Require Import Ascii String.
From Verif Require Import Strings StringsFacts Utf8 System Config Cli SpecCli SystemFacts CliFacts CliMain Args.
Open Scope list_scope.

(** A name in a directory. *)
Definition proper (n : str) : Prop := n <> [] /\ n <> lit "." /\ n <> lit ".." /\ ~ In c_slash n.

(** A file system as systems have them: the root is a directory and everything
    is in a directory, under a proper name. *)
Definition tidy (f : fs) : Prop :=
  names f [] = Some NDir /\
  forall p c, names f (p ++ [c]) <> None -> names f p = Some NDir /\ proper c.

(** The path exists and is not a symbolic link. *)
Definition real (f : fs) (p : path) : Prop :=
  exists n, names f p = Some n /\ forall t, n <> NLink t.

Lemma real_resolve f p : real f p -> resolve max_links f p = Some p.
Proof. intros (n & E & N). apply resolve_self. intros t K. rewrite E in K. apply (N t). congruence. Qed.

Lemma is_dir_iff f p : is_dir f p = true <-> names f p = Some NDir.
Proof. unfold is_dir. destruct (names f p) as [[i|t|]|]; split; congruence. Qed.

Lemma dir_parent f p : tidy f -> names f p = Some NDir -> names f (parent p) = Some NDir.
Proof.
  intros [R T] D. destruct p as [|x p] using rev_ind; [exact R|].
  unfold parent. rewrite removelast_last. apply (T p x). congruence.
Qed.

Lemma walk_real f cs : tidy f -> forall cur p, real f cur -> walk f cur cs = Some p -> real f p.
Proof.
  intros T. induction cs as [|c cs IH]; intros cur p R E; cbn [walk] in E.
  - injection E as <-. exact R.
  - destruct (is_dir f cur) eqn:D; [|discriminate]. apply is_dir_iff in D.
    destruct (is_empty c || str_eqb c (lit ".")); [exact (IH cur p R E)|].
    destruct (str_eqb c (lit "..")).
    + apply (IH (parent cur) p); [|exact E]. exists NDir. split; [apply dir_parent; assumption|discriminate].
    + destruct (resolve max_links f (cur ++ [c])) as [q|] eqn:Rq; [|discriminate].
      destruct (names f q) as [n|] eqn:Nq; [|discriminate].
      apply (IH q p); [|exact E]. exists n. split; [exact Nq|]. intros t ->.
      exact (resolve_end _ _ _ _ Rq t Nq).
Qed.

Lemma components_proper n rest : ~ In c_slash n ->
  components (n ++ c_slash :: rest) = n :: components rest /\ components n = [n].
Proof.
  induction n as [|c n IH]; intros H; [split; reflexivity|].
  destruct IH as [I1 I2]; [intros I; apply H; right; exact I|].
  cbn [app components]. destruct (ceq c c_slash) eqn:E.
  - apply ceq_eq in E. exfalso. apply H. left. exact E.
  - rewrite I1, I2. split; reflexivity.
Qed.

Lemma components_display p : Forall proper p -> p <> [] ->
  exists r, display p = c_slash :: r /\ components r = p.
Proof.
  intros F Ne. destruct p as [|n p]; [congruence|]. clear Ne.
  exists (n ++ flat_map (fun n => lit "/" ++ n) p). split; [reflexivity|].
  revert n F. induction p as [|m p IH]; intros n F; inversion F as [|? ? (_ & _ & _ & N) F']; subst.
  - cbn [flat_map]. rewrite app_nil_r. exact (proj2 (components_proper n [] N)).
  - cbn [flat_map]. change (n ++ (lit "/" ++ m) ++ flat_map (fun n => lit "/" ++ n) p)
      with (n ++ c_slash :: (m ++ flat_map (fun n => lit "/" ++ n) p)).
    rewrite (proj1 (components_proper n _ N)). f_equal. apply IH. exact F'.
Qed.

Lemma tidy_proper f p : tidy f -> names f p <> None -> Forall proper p.
Proof.
  intros [R T]. induction p as [|x p IH] using rev_ind; intros N; [constructor|].
  destruct (T p x N) as [D P]. apply Forall_app. split; [apply IH; congruence|constructor; [exact P|constructor]].
Qed.

Lemma prefix_dir f a : tidy f -> forall b, b <> [] -> names f (a ++ b) <> None -> names f a = Some NDir.
Proof.
  intros [_ T] b. induction b as [|x b IH] using rev_ind; intros Nb N; [congruence|].
  rewrite app_assoc in N. destruct (T _ _ N) as [D _]. destruct b as [|y b]; [now rewrite app_nil_r in D|].
  apply IH; congruence.
Qed.

(** Walking down real directories. *)
Lemma walk_down f p : tidy f -> names f p <> None -> forall cs pre rest, p = pre ++ cs ++ rest -> rest <> [] ->
  walk f pre (cs ++ rest) = walk f (pre ++ cs) rest.
Proof.
  intros T N. induction cs as [|c cs IH]; intros pre rest E Nr; [now rewrite app_nil_r|].
  assert (D : names f pre = Some NDir).
  { apply (prefix_dir f pre T ((c :: cs) ++ rest)); [discriminate|congruence]. }
  assert (Dc : names f (pre ++ [c]) = Some NDir).
  { apply (prefix_dir f (pre ++ [c]) T (cs ++ rest)).
    - destruct cs; [exact Nr|discriminate].
    - rewrite <- app_assoc. cbn [app] in E |- *. congruence. }
  destruct T as [T0 T1]. destruct (T1 pre c) as [_ (N1 & N2 & N3 & _)]; [congruence|].
  cbn [app walk]. apply is_dir_iff in D. rewrite D.
  assert (B1 : is_empty c = false) by (destruct c; [congruence|reflexivity]).
  assert (B2 : str_eqb c (lit ".") = false) by (destruct (str_eqb c (lit ".")) eqn:K; [apply str_eqb_eq in K; congruence|reflexivity]).
  assert (B3 : str_eqb c (lit "..") = false) by (destruct (str_eqb c (lit "..")) eqn:K; [apply str_eqb_eq in K; congruence|reflexivity]).
  rewrite B1, B2, B3. cbn [orb]. rewrite (real_resolve f (pre ++ [c])).
  - rewrite Dc. rewrite IH; [now rewrite <- app_assoc|rewrite <- app_assoc; exact E|exact Nr].
  - exists NDir. split; [exact Dc|discriminate].
Qed.

(** The text of a path means what the path leads to. *)
Lemma parse_path home f dir p q : tidy f ->
  names f p <> None -> resolve max_links f p = Some q -> names f q <> None ->
  parse_dir home f dir (display p) = Some q.
Proof.
  intros T N R Nq. unfold parse_dir. destruct p as [|n0 p0].
  - pose proof (proj1 T) as R0. rewrite real_resolve in R by (exists NDir; split; [exact R0|discriminate]).
    injection R as <-. apply is_dir_iff in R0.
    change (walk f [] [[]] = Some []). cbn [walk]. rewrite R0. reflexivity.
  - assert (Ne : n0 :: p0 <> []) by discriminate. remember (n0 :: p0) as p eqn:Ep. clear Ep n0 p0.
    destruct (components_display p) as (r & E & C); [apply (tidy_proper f); assumption|exact Ne|].
    rewrite E. change (tilde home (c_slash :: r)) with (c_slash :: r).
    change (canonicalize f dir (c_slash :: r)) with (walk f [] (components r)). rewrite C. clear E C r.
    destruct (exists_last Ne) as (d & c & ->).
    rewrite (walk_down f (d ++ [c]) T N d [] [c]) by (reflexivity || discriminate).
    cbn [app walk]. destruct (proj2 T d c N) as [D (N1 & N2 & N3 & _)].
    apply is_dir_iff in D. rewrite D.
    assert (B1 : is_empty c = false) by (destruct c; [congruence|reflexivity]).
    assert (B2 : str_eqb c (lit ".") = false) by (destruct (str_eqb c (lit ".")) eqn:K; [apply str_eqb_eq in K; congruence|reflexivity]).
    assert (B3 : str_eqb c (lit "..") = false) by (destruct (str_eqb c (lit "..")) eqn:K; [apply str_eqb_eq in K; congruence|reflexivity]).
    rewrite B1, B2, B3. cbn [orb]. rewrite R. destruct (names f q); [reflexivity|congruence].
Qed.

Lemma parse_real home f dir s p : tidy f -> names f dir = Some NDir -> parse_dir home f dir s = Some p -> real f p.
Proof.
  intros T D E. unfold parse_dir, canonicalize in E. destruct (tilde home s) as [|c r]; [discriminate|].
  destruct (ceq c c_slash).
  - apply (walk_real f (components r) T [] p); [|exact E]. exists NDir. split; [apply T|discriminate].
  - apply (walk_real f (components (c :: r)) T dir p); [|exact E]. exists NDir. split; [exact D|discriminate].
Qed.

Lemma parse_stable home home' f dir dir' s p : tidy f -> names f dir = Some NDir ->
  parse_dir home f dir s = Some p -> real f p /\ parse_dir home' f dir' (display p) = Some p.
Proof.
  intros T D E. pose proof (parse_real home f dir s p T D E) as R. split; [exact R|].
  apply parse_path; [exact T| |apply real_resolve, R|]; destruct R as (n & K & _); congruence.
Qed.

(** The tilde. *)
Lemma parse_tilde home f dir rest :
  parse_dir (Some (lit "/" ++ home)) f dir (lit "~/" ++ rest) =
    parse_dir None f dir (lit "/" ++ home ++ lit "/" ++ rest) /\
  parse_dir (Some (lit "/" ++ home)) f dir (lit "~") = parse_dir None f dir (lit "/" ++ home).
Proof. split; reflexivity.
Qed.

Lemma parse_no_tilde home f dir s :
  s <> lit "~" -> starts_with (lit "~/") s = false -> parse_dir home f dir s = parse_dir None f dir s.
Proof.
  intros N H. unfold parse_dir. f_equal. destruct s as [|c s]; [reflexivity|]. cbn [tilde].
  destruct (ceq c c_tilde) eqn:E; [|reflexivity]. apply ceq_eq in E. subst c.
  destruct s as [|d s]; [exfalso; apply N; reflexivity|].
  destruct (ceq d c_slash) eqn:E; [|reflexivity]. apply ceq_eq in E. subst d. discriminate.
Qed.

(** Where the output goes. *)
Lemma replaced_parent ext p out : replaced ext p out -> parent out = parent p.
Proof. intros [d s e _ _|d n _|d n _|]; unfold parent; rewrite ?removelast_last; reflexivity. Qed.

Lemma output_beside home f dir p q ext out : tidy f -> real f p ->
  parse_dir home f dir (display p) = Some q -> replaced ext q out -> q = p /\ parent out = parent p.
Proof.
  intros T R E O.
  assert (K : parse_dir home f dir (display p) = Some p).
  { apply parse_path; [exact T| |apply real_resolve, R|]; destruct R as (n & K & _); congruence. }
  assert (q = p) as -> by congruence. split; [reflexivity|]. apply (replaced_parent ext p out O).
Qed.

Lemma output_elsewhere home f dir p t ext : tidy f ->
  names f p = Some (NLink t) -> real f t -> parent t <> parent p ->
  parse_dir home f dir (display p) = Some t /\
  forall out, replaced ext t out -> parent out <> parent p.
Proof.
  intros T L R D. split.
  - apply parse_path; [exact T|congruence| |destruct R as (n & K & _); congruence].
    unfold max_links. cbn [resolve]. rewrite L. cbn [resolve]. destruct R as (n & K & N). rewrite K.
    destruct n as [i|t'|]; try reflexivity. exfalso. apply (N t'). reflexivity.
  - intros out O. rewrite (replaced_parent ext t out O). exact D.
Qed.
