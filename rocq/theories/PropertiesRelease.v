(** * PropertiesRelease: release.sh and the release workflow (C68-C74).

    [edit tag f] are the files after the [sed] commands of [release.sh tag]. *)
From Coq Require Import Ascii String Permutation.
From Verif Require Import Strings Npm Release SpecRelease ReleaseFacts ReleaseProps NumberFacts.
Open Scope list_scope.

(** ** C68: a release changes versions and nothing else *)
Theorem C68_exact : forall v f, version_text v -> exists f', edit (tag_of v) f = Some f' /\
  Forall2 (toml_change v) (lines (smd_toml f)) (lines (smd_toml f')) /\
  Forall2 (toml_change v) (lines (core_toml f)) (lines (core_toml f')) /\
  Forall2 (toml_change v) (lines (gfm_toml f)) (lines (gfm_toml f')) /\
  Forall2 (package_change v) (lines (package_json f)) (lines (package_json f')).
Proof. exact release_exact. Qed.
Print Assumptions C68_exact.

Example C68_exact_case : version_text (lit "1.2.0-rc.1") /\
  option_map core_toml (edit (lit "v1.2.0-rc.1")
    {| smd_toml := []; core_toml := lit "version = 1 # managed by release.sh"; gfm_toml := []; package_json := [] |}) =
  Some (lit "version = ""1.2.0-rc.1"" # managed by release.sh").
Proof. split; [split; [discriminate|reflexivity]|vm_compute; reflexivity]. Qed.

Example C68_package_case :
  option_map package_json (edit (lit "v2.0.0") repo) = Some (unlines (map lit
     ["{"; "    ""name"": ""smd"","; "    ""version"": ""2.0.0"","; "    ""optionalDependencies"": {";
      "        ""smd-darwin-arm64"": ""2.0.0"","; "        ""smd-darwin-x64"": ""2.0.0"""; "    }"; "}"; ""]%string)).
Proof. vm_compute. reflexivity. Qed.

(** Not so for a package.json of one line: everything up to the last quote is lost. *)
Theorem C68_one_line_refuted : forall v f p w r1 r2,
  version_text v -> no_quote p -> w <> [] -> no_quote r2 ->
  package_json f = p ++ lit """version"": """ ++ w ++ c_quote :: r1 ++ c_quote :: r2 -> no_nl (package_json f) ->
  exists f', edit (tag_of v) f = Some f' /\ package_json f' = p ++ lit """version"": """ ++ v ++ c_quote :: r2.
Proof. exact release_cuts. Qed.
Print Assumptions C68_one_line_refuted.

Example C68_one_line_case :
  option_map package_json (edit (lit "v2")
    {| smd_toml := []; core_toml := []; gfm_toml := [];
       package_json := lit "{ ""version"": ""1"", ""type"": ""module"" }" |}) = Some (lit "{ ""version"": ""2"" }").
Proof. vm_compute. reflexivity. Qed.

(** Nor for a tag with an ampersand: the old line is repeated in the new one. *)
Theorem C68_ampersand_refuted : forall a b f,
  version_text a -> version_text b -> managed (core_toml f) -> no_nl (core_toml f) ->
  exists f', edit (tag_of (a ++ c_amp :: b)) f = Some f' /\
    core_toml f' = lit "version = """ ++ a ++ core_toml f ++ b ++ lit """ # managed by release.sh".
Proof. exact release_amp. Qed.
Print Assumptions C68_ampersand_refuted.

(** ** C69: after a release the crates fit together

    Refuted: smd asks for the new version of smd-core and gfm, whose versions stay as they are, so that
    cargo refuses every newer version. *)
Theorem C69_refuted : forall v x, read_version v = Some x -> version_compare old_version x = Lt ->
  resolves repo = true /\ exists f', edit (tag_of v) repo = Some f' /\ resolves f' = false.
Proof. exact repo_stale. Qed.
Print Assumptions C69_refuted.

Example C69_refuted_case : exists x, read_version (lit "0.1.3") = Some x /\ version_compare old_version x = Lt.
Proof. eexists. split; vm_compute; reflexivity. Qed.

(** For all files: a crate of which the version is not managed. *)
Theorem C69_unmanaged_refuted : forall v x y f f' h t ls lc, version_text v -> read_version v = Some x ->
  edit (tag_of v) f = Some f' ->
  In (h, t) [(lit "[dependencies.smd-core]", core_toml); (lit "[dependencies.gfm]", gfm_toml)] ->
  version_line false h (lines (smd_toml f)) = Some ls -> managed ls ->
  version_line false (lit "[package]") (lines (t f)) = Some lc -> ~ managed lc ->
  version_of (lit "[package]") (t f) = Some y -> version_compare y x = Lt ->
  version_of (lit "[package]") (t f') = Some y /\ resolves f' = false.
Proof. exact stale_crate. Qed.
Print Assumptions C69_unmanaged_refuted.

(** With all versions managed it would be true. *)
Theorem C69_managed_partial : forall v x f l1 l2 l3 l4, version_text v -> read_version v = Some x ->
  version_line false (lit "[dependencies.smd-core]") (lines (smd_toml f)) = Some l1 -> managed l1 ->
  version_line false (lit "[dependencies.gfm]") (lines (smd_toml f)) = Some l2 -> managed l2 ->
  version_line false (lit "[package]") (lines (core_toml f)) = Some l3 -> managed l3 ->
  version_line false (lit "[package]") (lines (gfm_toml f)) = Some l4 -> managed l4 ->
  exists f', edit (tag_of v) f = Some f' /\ resolves f' = true.
Proof. exact managed_release. Qed.
Print Assumptions C69_managed_partial.

Example C69_managed_case : exists f', edit (lit "v0.2.0")
    {| smd_toml := smd_toml repo;
       core_toml := unlines [lit "[package]"; lit "version = ""0.1.3-pre"" # managed by release.sh"];
       gfm_toml := unlines [lit "[package]"; lit "version = ""0.1.3-pre"" # managed by release.sh"];
       package_json := [] |} = Some f' /\ resolves f' = true.
Proof. eexists. split; vm_compute; reflexivity. Qed.

(** Which versions cargo takes to be newer, and which it accepts for a requirement, as the two
    specifications say (SpecRelease.v). *)
Theorem C69_precedence : forall a b,
  (version_compare a b = Lt <-> precedes a b) /\ (version_compare a b = Gt <-> precedes b a).
Proof. exact version_order. Qed.
Print Assumptions C69_precedence.

Theorem C69_requirement : forall r v, matches_req r v = true <->
  ~ precedes v r /\ compatible r v /\
  (pre v <> [] -> pre r <> [] /\ major v = major r /\ minor v = minor r /\ patch v = patch r).
Proof. exact requirement_iff. Qed.
Print Assumptions C69_requirement.

(** The example of SemVer 11.4. *)
Example C69_precedence_case : let v p := {| major := 1; minor := 0; patch := 0; pre := p |} in
  forall i, i < 7 ->
  let l := [v [lit "alpha"]; v [lit "alpha"; lit "1"]; v [lit "alpha"; lit "beta"]; v [lit "beta"]; v [lit "beta"; lit "2"];
            v [lit "beta"; lit "11"]; v [lit "rc"; lit "1"]; v []] in
  precedes (nth i l (v [])) (nth (S i) l (v [])).
Proof.
  cbv zeta. intros i H. apply (proj1 (version_order _ _)).
  do 7 (destruct i as [|i]; [vm_compute; reflexivity|]). lia.
Qed.

(** ** C70: the last release counts *)
Theorem C70_again : forall x y f f', version_text x -> version_text y ->
  edit (tag_of x) f = Some f' -> edit (tag_of y) f' = edit (tag_of y) f.
Proof. exact release_again. Qed.
Print Assumptions C70_again.

Example C70_again_case : version_text (lit "0.2.0") /\ version_text (lit "0.2.1") /\
  edit (lit "v0.2.0") repo <> None /\ edit (lit "v0.2.0") repo <> edit (lit "v0.2.1") repo.
Proof.
  split; [split; [discriminate|reflexivity]|]. split; [split; [discriminate|reflexivity]|].
  split; vm_compute; discriminate.
Qed.

(** Not behind the tag [v]. *)
Theorem C70_empty_refuted :
  exists f f' y, version_text y /\ edit [118%N] f = Some f' /\ edit (tag_of y) f' <> edit (tag_of y) f.
Proof. exact release_empty. Qed.
Print Assumptions C70_empty_refuted.

(** ** C71: a step that fails stops the release

    Refuted for all failures: the tag is made, and the status is 0. *)
Theorem C71_refuted : forall ok tag, tag <> [] ->
  snd (script ok tag) = 0 /\ In TagIt (fst (script ok tag)) /\ In (Cliff true) (fst (script ok tag)).
Proof. exact script_goes_on. Qed.
Print Assumptions C71_refuted.

Example C71_refuted_case : fst (script (fun _ => false) (lit "v1.0.0")) =
  [CommandV; Sed 0; Sed 1; Sed 2; Sed 3; Cliff true; Add; Show; Cliff false; TagIt; TagCheck].
Proof. reflexivity. Qed.

(** ** C72: script and workflow agree on the version of a tag *)
Theorem C72_same_version : forall tag, trigger tag = true -> strip_v tag = release_version tag.
Proof. exact same_version. Qed.
Print Assumptions C72_same_version.

(** The texts that are versions, and which. *)
Theorem C72_versions : forall s v, read_version s = Some v <-> semver s v.
Proof. exact versions. Qed.
Print Assumptions C72_versions.

(** The tag of every version (SemVer) can be given to the script and starts the workflow. *)
Theorem C72_every_version : forall v x, read_version v = Some x -> version_text v /\ trigger (tag_of v) = true.
Proof. exact version_released. Qed.
Print Assumptions C72_every_version.

Example C72_case : trigger (lit "v1.2.3-rc.1+b") = true /\ release_version (lit "v1.2.3-rc.1+b") = lit "1.2.3-rc.1+b" /\
  trigger (lit "1.2.3") = false /\ trigger (lit "v1.2") = false /\
  read_version (lit "1.2.3-rc.1+b") = Some {| major := 1; minor := 2; patch := 3; pre := [lit "rc"; lit "1"] |} /\
  read_version (lit "1.02.3") = None.
Proof. repeat split; vm_compute; reflexivity. Qed.

(** ** C73: a tag publishes the packages of all platforms

    Refuted: the file LREADME.md is copied, which there is not, and everything behind that is skipped,
    whatever the other commands do. *)
Theorem C73_refuted : forall tree ext changelog_ok, In false (map tree copied) -> forall tag,
  (forall b s, publishing s -> ~ started tree ext changelog_ok tag b s) /\
  base_packages_start tree ext changelog_ok tag = false.
Proof. exact nothing_published. Qed.
Print Assumptions C73_refuted.

Example C73_refuted_case : In false (map (fun f => existsb (str_eqb f) root_files) copied).
Proof. vm_compute. tauto. Qed.

Theorem C73_repo_refuted : forall ext changelog_ok tag,
  let tree := fun f => existsb (str_eqb f) root_files in
  (forall b s, publishing s -> ~ started tree ext changelog_ok tag b s) /\
  base_packages_start tree ext changelog_ok tag = false.
Proof. intros ext ok tag. exact (nothing_published _ ext ok C73_refuted_case tag). Qed.
Print Assumptions C73_repo_refuted.

(** With these files, and if nothing else fails, all steps run. *)
Theorem C73_partial : forall tree ext changelog_ok,
  forallb tree copied = true -> (forall b s, ext b s = true) -> changelog_ok = true ->
  forall tag, trigger tag = true ->
  (forall b s, In b matrix -> applies b tag s = true -> started tree ext changelog_ok tag b s) /\
  base_packages_start tree ext changelog_ok tag = true.
Proof. exact all_published. Qed.
Print Assumptions C73_partial.

(** The packages for npm are those that the base package asks for. *)
Theorem C73_packages : Permutation (map node_pkg (filter npm_publish matrix)) optional_dependencies.
Proof. exact node_packages. Qed.
Print Assumptions C73_packages.

(** The Debian package that is uploaded is the one that was built, unless the version has a hyphen. *)
Theorem C73_debian : forall v, deb_uploaded (tag_of v) = deb_built (tag_of v) <-> ~ In c_minus v.
Proof. exact deb_same. Qed.
Print Assumptions C73_debian.

(** ** C74: the binary is published on crates.io behind the libraries

    Refuted: the files it waits for cannot be in the index, so that it waits for ever. *)
Theorem C74_refuted : forall index tag fuel, laid_out index -> crates_wait fuel index tag = None.
Proof. exact crates_wait_never. Qed.
Print Assumptions C74_refuted.

Example C74_refuted_case : exists index, laid_out index /\
  index 0 (lit "sm/d-/smd-core") = Some (lit "{""name"":""smd-core"",""vers"":""1.0.0""}") /\
  wait 1 index (lit "sm/d-/smd-core") (lit "1.0.0") 0 = Some 1.
Proof.
  exists (fun _ p => if str_eqb p (lit "sm/d-/smd-core") then Some (lit "{""name"":""smd-core"",""vers"":""1.0.0""}") else None).
  split; [|split; vm_compute; reflexivity]. intros n path t E. exists (lit "smd-core").
  destruct (str_eqb path (lit "sm/d-/smd-core")) eqn:Q; [|discriminate E].
  apply StringsFacts.str_eqb_eq in Q. exact Q.
Qed.
