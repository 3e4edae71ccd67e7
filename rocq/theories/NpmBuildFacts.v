(** * NpmBuildFacts: when the npm package smd is published, what is in it, and what its program starts. *)
From Coq Require Import Ascii String.
From Verif Require Import Strings StringsFacts NpmBuild.
From Verif Require Npm Release SpecRelease ReleaseFacts Platform SpecJson PlatformFacts.
Open Scope list_scope.

(** ** What is to hold *)

(** The files that npm/smd/package.json:6-22 names: main, module, types, bin and exports. *)
Definition named_files : list (list str) :=
  map (map lit) [["lib"; "cjs"; "index.d.cts"]; ["lib"; "esm"; "index.d.ts"]; ["lib"; "cli"; "cli.js"];
                 ["lib"; "esm"; "index.js"]; ["lib"; "cjs"; "index.cjs"]]%string.
Definition complete (package : list (list str)) : Prop := forall p, In p named_files -> In p package.

(** There is a file with a configuration of tsup in the directory of the package or above. *)
Definition configured (t : list (list str)) : Prop :=
  exists n, In n (map lit ["tsup.config.ts"; "tsup.config.cts"; "tsup.config.mts"; "tsup.config.js"; "tsup.config.cjs";
                           "tsup.config.mjs"; "tsup.config.json"]%string) /\
    (In [lit "npm"; lit "smd"; n] t \/ In [lit "npm"; n] t \/ In [n] t).

(** The configuration makes modules of a kind from a file of src in a directory. *)
Definition makes (cs : list config) (e : str) (dir : list str) (k : kind) (with_types : bool) : Prop :=
  exists c, In c cs /\ In e (entries c) /\ out_dir c = dir /\ In k (formats c) /\ (with_types = true -> declarations c = true).

(** ** Files *)
Lemma path_eqb_eq p q : path_eqb p q = true <-> p = q.
Proof.
  revert q. induction p as [|a p IH]; intros [|b q]; cbn [path_eqb]; try (split; congruence).
  rewrite andb_true_iff, str_eqb_eq, IH. split; [intros [-> ->]; reflexivity|intros E; injection E as -> ->; auto].
Qed.

Lemma has_iff t p : has t p = true <-> In p t.
Proof.
  unfold has. rewrite existsb_exists. split.
  - intros (q & I & E). apply path_eqb_eq in E as ->. exact I.
  - intros I. exists p. split; [exact I|]. now apply path_eqb_eq.
Qed.

(** ** Without a configuration nothing is published *)
Lemma find_in_none says t dir names :
  (forall n, In n names -> ~ In (dir ++ [n]) t) -> find_in says t dir names = None.
Proof.
  induction names as [|n names IH]; intros H; cbn [find_in]; [reflexivity|].
  destruct (has t (dir ++ [n])) eqn:E.
  - apply has_iff in E. destruct (H n (or_introl eq_refl) E).
  - apply IH. intros m I. apply H. right. exact I.
Qed.

Lemma not_configured says t : ~ configured t -> configs says None t = [Config [] [lit "dist"] [Cjs] false].
Proof.
  intros H. unfold configs. cbn [search].
  rewrite !find_in_none; [reflexivity| | |];
    intros n I J; apply H; exists n; (split; [exact I|]); cbn in J; auto.
Qed.

(** The file that is read: in the nearest directory, and there the first in the order of the names. *)
Definition config_files : list str :=
  map lit ["tsup.config.ts"; "tsup.config.cts"; "tsup.config.mts"; "tsup.config.js"; "tsup.config.cjs"; "tsup.config.mjs";
           "tsup.config.json"]%string.
Definition read_first (t : list (list str)) (dir : list str) (n : str) : Prop :=
  exists ds1 ds2 ns1 ns2,
    [[lit "npm"; lit "smd"]; [lit "npm"]; []] = ds1 ++ dir :: ds2 /\ config_files = ns1 ++ n :: ns2 /\
    In (dir ++ [n]) t /\ (forall m, In m ns1 -> ~ In (dir ++ [m]) t) /\
    (forall d m, In d ds1 -> In m config_files -> ~ In (d ++ [m]) t).

Lemma find_in_first says t dir ns1 n ns2 :
  In (dir ++ [n]) t -> (forall m, In m ns1 -> ~ In (dir ++ [m]) t) ->
  find_in says t dir (ns1 ++ n :: ns2) = Some (says (dir ++ [n])).
Proof.
  intros I. induction ns1 as [|m ns1 IH]; intros H; cbn [find_in app].
  - apply has_iff in I. now rewrite I.
  - destruct (has t (dir ++ [m])) eqn:E; [apply has_iff in E; destruct (H m (or_introl eq_refl) E)|].
    apply IH. intros x J. apply H. right. exact J.
Qed.

Lemma configuration_read says above t dir n : read_first t dir n -> configs says above t = says (dir ++ [n]).
Proof.
  intros (ds1 & ds2 & ns1 & ns2 & D & N & I & A & B). unfold configs. unfold package_dir. rewrite D.
  change config_names with config_files in *.
  assert (S : search says above t (ds1 ++ dir :: ds2) = Some (says (dir ++ [n]))).
  { clear D. induction ds1 as [|d ds1 IH]; cbn [app search].
    - change config_names with config_files. rewrite N, find_in_first; auto.
    - change config_names with config_files. rewrite find_in_none; [|intros m J; apply B; [left; reflexivity|exact J]].
      apply IH. intros d' m J. apply B. right. exact J. }
  now rewrite S.
Qed.

Lemma configuration_above says cs t : ~ configured t -> configs says (Some cs) t = cs.
Proof.
  intros H. unfold configs. cbn [search].
  rewrite !find_in_none; [reflexivity| | |];
    intros n I J; apply H; exists n; (split; [exact I|]); cbn in J; auto.
Qed.

Lemma never_published says ok t : ~ configured t -> publish_npm says None ok t = None.
Proof.
  intros H. unfold publish_npm, tsup. rewrite (not_configured says t H). cbn [forallb sound entries andb].
  destruct (ok SetToken && ok SetRegistry && ok Install && ok Build); reflexivity.
Qed.

Lemma checkout_not_configured : ~ configured checkout.
Proof.
  intros (n & I & J).
  assert (F : forallb (fun n => negb (has checkout [lit "npm"; lit "smd"; n] || has checkout [lit "npm"; n] || has checkout [n]))
                (map lit ["tsup.config.ts"; "tsup.config.cts"; "tsup.config.mts"; "tsup.config.js"; "tsup.config.cjs";
                           "tsup.config.mjs"; "tsup.config.json"]%string) = true) by (vm_compute; reflexivity).
  rewrite forallb_forall in F. specialize (F n I). rewrite negb_true_iff, !orb_false_iff in F.
  destruct F as [[F1 F2] F3]. destruct J as [J|[J|J]]; apply has_iff in J; congruence.
Qed.

(** ** What is in the package *)
Lemma published says above ok t pkg : publish_npm says above ok t = Some pkg ->
  forallb (sound t) (configs says above t) = true /\
  pkg = pack (((t ++ flat_map results (configs says above t)) ++ [package_dir ++ [lit "README.md"]]) ++ [package_dir ++ [lit "CHANGELOG.md"]]).
Proof.
  unfold publish_npm, tsup, copy.
  destruct (ok SetToken && ok SetRegistry && ok Install && ok Build); [|discriminate].
  destruct (forallb (sound t) (configs says above t)); [|discriminate].
  destruct (ok CopyReadme); [|discriminate].
  destruct (has _ [lit "README.md"]); [|discriminate].
  destruct (ok CopyChangelog); [|discriminate].
  destruct (has _ [lit "CHANGELOG.md"]); [|discriminate].
  destruct (ok Publish); [|discriminate].
  intros E. split; [reflexivity|]. congruence.
Qed.

Lemma in_pack q t : In q (pack t) <-> In (package_dir ++ q) t /\ taken q = true.
Proof.
  unfold pack. rewrite in_flat_map. split.
  - intros (p & I & J). destruct p as [|a [|b r]]; cbn [in_package] in J; try destruct J.
    destruct (str_eqb a (lit "npm")) eqn:A; [|destruct J]. destruct (str_eqb b (lit "smd")) eqn:B; [|destruct J].
    destruct (taken r) eqn:T; [|destruct J]. destruct J as [<-|[]].
    apply str_eqb_eq in A as ->. apply str_eqb_eq in B as ->. auto.
  - intros [I T]. exists (package_dir ++ q). split; [exact I|]. unfold package_dir. cbn [app in_package].
    rewrite !str_eqb_refl. cbn [andb]. rewrite T. left. reflexivity.
Qed.

Lemma named_taken p : In p named_files -> taken p = true.
Proof.
  assert (F : forallb taken named_files = true) by (vm_compute; reflexivity).
  rewrite forallb_forall in F. apply F.
Qed.

Lemma in_results cs p : In p (flat_map results cs) <->
  exists c e k, In c cs /\ In e (entries c) /\ In k (formats c) /\ In p (products c e k).
Proof.
  rewrite in_flat_map. split.
  - intros (c & C & H). unfold results in H. apply in_flat_map in H as (e & E & H). apply in_flat_map in H as (k & K & H). eauto 8.
  - intros (c & e & k & C & E & K & H). exists c. split; [exact C|]. apply in_flat_map. exists e. split; [exact E|].
    apply in_flat_map. eauto.
Qed.

Definition ending (k : kind) (types : bool) : str :=
  match k, types with Esm, false => lit ".js" | Esm, true => lit ".d.ts" | Cjs, false => lit ".cjs" | Cjs, true => lit ".d.cts" end.

Lemma in_products c e k p : In p (products c e k) <->
  exists types, (types = true -> declarations c = true) /\ p = package_dir ++ out_dir c ++ [e ++ ending k types].
Proof.
  unfold products. split.
  - destruct k; cbn [In]; (intros [<-|H]; [exists false; split; [discriminate|reflexivity]|]);
      (destruct (declarations c); [|destruct H]); destruct H as [<-|[]]; exists true; auto.
  - intros ([|] & D & ->); destruct k; cbn [In ending]; rewrite ?D by reflexivity; cbn [In]; auto.
Qed.

(** Which entry makes a file with one of the endings. *)
Lemma ending_inj e e' k k' t t' : ~ In c_dot e -> e' ++ ending k' t' = e ++ ending k t ->
  e' = e /\ k' = k /\ t' = t.
Proof.
  intros N E.
  assert (R := f_equal (@rev _) E). rewrite !rev_app_distr in R.
  assert (K : k' = k /\ t' = t).
  { destruct k, k', t, t'; cbn in R; try discriminate R; auto.
    all: exfalso; apply N, in_rev; destruct (rev e) as [|x1 [|x2 r]] ; cbn in R; injection R; intros; subst; cbn; auto. }
  destruct K as [-> ->]. apply app_inv_tail in E. auto.
Qed.

Lemma made says above t dir e k types :
  ~ In c_dot e -> (forall q, ~ In (package_dir ++ lit "lib" :: q) t) ->
  In (package_dir ++ lit "lib" :: dir ++ [e ++ ending k types])
     (((t ++ flat_map results (configs says above t)) ++ [package_dir ++ [lit "README.md"]]) ++ [package_dir ++ [lit "CHANGELOG.md"]]) <->
  makes (configs says above t) e (lit "lib" :: dir) k types.
Proof.
  intros N L. rewrite !in_app_iff, in_results. split.
  - intros [[[H|H]|[H|[]]]|[H|[]]].
    + destruct (L _ H).
    + destruct H as (c & e' & k' & C & E & K & H). apply in_products in H as (t' & D & H).
      apply app_inv_head in H. change (lit "lib" :: dir ++ [e ++ ending k types]) with ((lit "lib" :: dir) ++ [e ++ ending k types]) in H.
      apply app_inj_tail in H as [O H]. symmetry in H. apply ending_inj in H as (-> & -> & ->); auto.
      exists c. auto.
    + exfalso. cbn in H. discriminate H.
    + exfalso. cbn in H. discriminate H.
  - intros (c & C & E & O & K & D). left. left. right. exists c, e, k. repeat split; auto.
    apply in_products. exists types. split; [exact D|]. rewrite O. reflexivity.
Qed.

Lemma makes_less cs e dir k : makes cs e dir k true -> makes cs e dir k false.
Proof. intros (c & C & E & O & K & _). exists c. repeat split; auto. discriminate. Qed.

Lemma complete_iff says above ok t pkg :
  publish_npm says above ok t = Some pkg -> (forall q, ~ In (package_dir ++ lit "lib" :: q) t) ->
  (complete pkg <->
   makes (configs says above t) (lit "cli") [lit "lib"; lit "cli"] Esm false /\
   makes (configs says above t) (lit "index") [lit "lib"; lit "esm"] Esm true /\
   makes (configs says above t) (lit "index") [lit "lib"; lit "cjs"] Cjs true).
Proof.
  intros H L. apply published in H as [_ ->].
  assert (M : forall dir e k types, ~ In c_dot e -> In (lit "lib" :: dir ++ [e ++ ending k types]) named_files ->
    (In (lit "lib" :: dir ++ [e ++ ending k types])
       (pack (((t ++ flat_map results (configs says above t)) ++ [package_dir ++ [lit "README.md"]]) ++ [package_dir ++ [lit "CHANGELOG.md"]]))
     <-> makes (configs says above t) e (lit "lib" :: dir) k types)).
  { intros dir e k types N I. rewrite in_pack, made by assumption. split; [intros [X _]; exact X|].
    intros X. split; [exact X|apply named_taken, I]. }
  assert (D1 : ~ In c_dot (lit "cli")) by (vm_compute; intuition discriminate).
  assert (D2 : ~ In c_dot (lit "index")) by (vm_compute; intuition discriminate).
  pose proof (M [lit "cli"] (lit "cli") Esm false D1) as M1.
  pose proof (M [lit "esm"] (lit "index") Esm true D2) as M2.
  pose proof (M [lit "esm"] (lit "index") Esm false D2) as M3.
  pose proof (M [lit "cjs"] (lit "index") Cjs true D2) as M4.
  pose proof (M [lit "cjs"] (lit "index") Cjs false D2) as M5.
  unfold complete.
  split.
  - intros F. repeat split.
    + apply M1; [|apply F]; right; right; left; reflexivity.
    + apply M2; [|apply F]; right; left; reflexivity.
    + apply M4; [|apply F]; left; reflexivity.
  - intros (F1 & F2 & F4) p I. pose proof I as J.
    pose proof (makes_less _ _ _ _ F2) as F3. pose proof (makes_less _ _ _ _ F4) as F5.
    destruct J as [<-|[<-|[<-|[<-|[<-|[]]]]]];
      [apply (M4 I), F4|apply (M2 I), F2|apply (M1 I), F1|apply (M3 I), F3|apply (M5 I), F5].
Qed.

(** Exactly when a package is published. *)
Definition buildable (t : list (list str)) (c : config) : Prop :=
  entries c <> [] /\ forall e, In e (entries c) -> In ([lit "npm"; lit "smd"; lit "src"] ++ [e ++ lit ".ts"]) t.

Lemma sound_iff t c : sound t c = true <-> buildable t c.
Proof.
  unfold sound, buildable. destruct (entries c) as [|e es] eqn:E; [split; [discriminate|intros [H _]; contradiction]|].
  rewrite <- E, forallb_forall. split.
  - intros H. split; [rewrite E; discriminate|]. intros x I. apply has_iff, (H x I).
  - intros [_ H] x I. apply has_iff, (H x I).
Qed.

Lemma published_iff says above ok t :
  (exists pkg, publish_npm says above ok t = Some pkg) <->
  (forall c, ok c = true) /\ (forall c, In c (configs says above t) -> buildable t c) /\
  (In [lit "README.md"] t /\ In [lit "CHANGELOG.md"] t).
Proof.
  assert (R : forall n x, In x (flat_map results (configs says above t)) -> x <> [n]).
  { intros n x I ->. apply in_results in I as (c & e & k & _ & _ & _ & I). apply in_products in I as (ty & _ & I).
    unfold package_dir in I. cbn [app] in I. discriminate I. }
  assert (A : forall n, has (t ++ flat_map results (configs says above t)) [n] = has t [n]).
  { intros n. apply eq_true_iff_eq. rewrite !has_iff, in_app_iff. split; [|auto].
    intros [H|H]; [exact H|]. destruct (R n _ H eq_refl). }
  assert (B : forall n, has ((t ++ flat_map results (configs says above t)) ++ [package_dir ++ [lit "README.md"]]) [n] = has t [n]).
  { intros n. rewrite <- (A n). apply eq_true_iff_eq. rewrite !has_iff, (in_app_iff (t ++ _)). split; [|auto].
    intros [H|[H|[]]]; [exact H|]. discriminate H. }
  unfold publish_npm, tsup, copy. split.
  - intros (pkg & H).
    destruct (ok SetToken) eqn:O1, (ok SetRegistry) eqn:O2, (ok Install) eqn:O3, (ok Build) eqn:O4; try discriminate H.
    cbn [andb] in H.
    destruct (forallb (sound t) (configs says above t)) eqn:S; [|discriminate H].
    destruct (ok CopyReadme) eqn:O5; [|discriminate H].
    rewrite A in H. destruct (has t [lit "README.md"]) eqn:H1; [|discriminate H].
    destruct (ok CopyChangelog) eqn:O6; [|discriminate H].
    rewrite B in H. destruct (has t [lit "CHANGELOG.md"]) eqn:H2; [|discriminate H].
    destruct (ok Publish) eqn:O7; [|discriminate H].
    split; [intros []; assumption|]. split.
    + intros c I. rewrite forallb_forall in S. apply sound_iff, S, I.
    + split; apply has_iff; assumption.
  - intros (O & S & H1 & H2). rewrite !O. cbn [andb].
    assert (F : forallb (sound t) (configs says above t) = true).
    { apply forallb_forall. intros c I. apply sound_iff, S, I. }
    rewrite F. apply has_iff in H1. apply has_iff in H2. rewrite A, H1, B, H2. eauto.
Qed.

(** Exactly what is in the package: of the files that were there, were made or were copied those below lib, and the
    description, readme, license and changelog. *)
Definition wanted (q : list str) : Prop :=
  (exists r, q = lit "lib" :: r) \/
  exists n, q = [n] /\
    (n = lit "package.json" \/
     exists x, In x (map lit ["readme"; "license"; "licence"; "changelog"]%string) /\
       (to_lowercase n = x \/ exists y, to_lowercase n = x ++ lit "." ++ y)).

(** A file that the configuration makes. *)
Definition made_by (cs : list config) (q : list str) : Prop :=
  exists c e k x, In c cs /\ In e (entries c) /\ In k (formats c) /\ q = out_dir c ++ [e ++ x] /\
    match k with
    | Esm => x = lit ".js" \/ (x = lit ".d.ts" /\ declarations c = true)
    | Cjs => x = lit ".cjs" \/ (x = lit ".d.cts" /\ declarations c = true)
    end.

Lemma taken_iff q : taken q = true <-> wanted q.
Proof.
  unfold taken, wanted.
  assert (A : forall n, always n = true <-> (n = lit "package.json" \/
     exists x, In x (map lit ["readme"; "license"; "licence"; "changelog"]%string) /\
       (to_lowercase n = x \/ exists y, to_lowercase n = x ++ lit "." ++ y))).
  { intros n. unfold always. rewrite orb_true_iff, str_eqb_eq, existsb_exists.
    split; (intros [H|(x & I & H)]; [left; exact H|right; exists x; split; [exact I|]]).
    - apply orb_true_iff in H as [H|H]; [left; apply str_eqb_eq, H|right].
      apply starts_with_iff in H as (y & H). exists y. unfold to_lowercase. rewrite H, <- app_assoc. reflexivity.
    - apply orb_true_iff. destruct H as [H|(y & H)]; [left; apply str_eqb_eq, H|right].
      apply starts_with_iff. exists y. rewrite <- app_assoc. exact H. }
  rewrite orb_true_iff. split.
  - intros [H|H].
    + destruct q as [|n [|m q]]; [discriminate| |].
      * apply orb_true_iff in H as [H|H]; [right; exists n; split; [reflexivity|]; apply A, H|].
        apply str_eqb_eq in H as ->. left. eauto.
      * apply str_eqb_eq in H as ->. left. eauto.
    + left. apply existsb_exists in H as (p & I & H). apply path_eqb_eq in H as ->.
      destruct I as [<-|[<-|[<-|[]]]]; eexists; reflexivity.
  - intros [(r & ->)|(n & -> & H)]; left.
    + destruct r; rewrite str_eqb_refl; [apply orb_true_r|reflexivity].
    + apply A in H. rewrite H. reflexivity.
Qed.

Lemma made_by_iff cs q : In (package_dir ++ q) (flat_map results cs) <-> made_by cs q.
Proof.
  rewrite in_results. unfold made_by. split.
  - intros (c & e & k & C & E & K & H). apply in_products in H as (ty & D & H). apply app_inv_head in H.
    exists c, e, k, (ending k ty). repeat split; auto. destruct k, ty; cbn [ending]; auto.
  - intros (c & e & k & x & C & E & K & -> & H). exists c, e, k. repeat split; auto. apply in_products.
    destruct k; (destruct H as [->|(-> & D)]; [exists false; split; [discriminate|reflexivity]|exists true; auto]).
Qed.

Lemma contents_iff says above ok t pkg q : publish_npm says above ok t = Some pkg ->
  (In q pkg <-> wanted q /\
   (In ([lit "npm"; lit "smd"] ++ q) t \/ made_by (configs says above t) q \/ q = [lit "README.md"] \/ q = [lit "CHANGELOG.md"])).
Proof.
  intros H. apply published in H as [_ ->]. rewrite in_pack, taken_iff, !in_app_iff, made_by_iff.
  assert (R : forall n, In (package_dir ++ q) [package_dir ++ [n]] <-> q = [n]).
  { intros n. cbn [In]. split; [intros [E|[]]; apply app_inv_head in E; auto|intros ->; auto]. }
  rewrite !R. unfold package_dir. tauto.
Qed.

(** ** What the program of the package starts *)

(** The packages of the platforms, with [Platform]: the file that getExePath.ts asks for is in none of them. *)
Lemma other_name v x b s m :
  Release.read_version v = Some x -> In b Release.matrix -> Release.npm_publish b = true ->
  Platform.package_json b (SpecRelease.tag_of v) = Some s -> SpecJson.installs s m ->
  exists place ext,
    Release.node_pkg b ++ lit "/" ++ Platform.package_program b = lit "smd-" ++ place ++ lit "/bin/smd" ++ ext /\
    Npm.exe_module (SpecJson.platform m) (SpecJson.arch m) = lit "git-cliff-" ++ place ++ lit "/bin/git-cliff" ++ ext.
Proof.
  intros V B P S I.
  assert (O : In (SpecJson.platform m, SpecJson.arch m, Release.node_pkg b) SpecJson.platforms).
  { apply (PlatformFacts.version_only v x m V). exists b, s. auto. }
  destruct (PlatformFacts.version_program v x b s m V B P S I) as [W U].
  destruct m as [p a l]. cbn [SpecJson.platform SpecJson.arch] in *.
  assert (D : p = lit "win32" \/ p <> lit "win32").
  { destruct (str_eqb p (lit "win32")) eqn:E; [left; apply str_eqb_eq, E|right; intros K; apply str_eqb_eq in K; congruence]. }
  assert (G : Platform.package_program b = (if str_eqb p (lit "win32") then lit "bin/smd.exe" else lit "bin/smd")).
  { destruct D as [D|D]; [rewrite (W D), D, str_eqb_refl; reflexivity|rewrite (U D)].
    destruct (str_eqb p (lit "win32")) eqn:E; [apply str_eqb_eq in E; contradiction|reflexivity]. }
  rewrite G. clear -O.
  assert (F : forall p a n, In (p, a, n) SpecJson.platforms -> exists place, n = lit "smd-" ++ place /\
    Npm.exe_module p a = lit "git-cliff-" ++ place ++ lit "/bin/git-cliff" ++ (if str_eqb p (lit "win32") then lit ".exe" else [])).
  { intros p' a' n H. repeat (destruct H as [H|H]; [injection H as <- <- <-; eexists; split; vm_compute; reflexivity|]). destruct H. }
  destruct (F _ _ _ O) as (place & -> & K). rewrite K. exists place. eexists. split; [|reflexivity].
  rewrite <- !app_assoc. f_equal. f_equal. destruct (str_eqb p (lit "win32")); reflexivity.
Qed.

(** A configuration as git-cliff has it, for the examples. *)
Definition three : list config :=
  [Config [lit "cli"] [lit "lib"; lit "cli"] [Esm] false; Config [lit "index"] [lit "lib"; lit "esm"] [Esm] true;
   Config [lit "index"] [lit "lib"; lit "cjs"] [Cjs] true].
Definition with_config : list (list str) := checkout ++ [package_dir ++ [lit "tsup.config.ts"]].
