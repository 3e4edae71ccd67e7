(** * C128: every version of SemVer is one of the Python package, in the same order. *)
From Coq Require Import Ascii String.
From Verif Require Import Strings Release SpecRelease Python SpecPython PythonFacts.
Open Scope list_scope.

(** True of releases and of [alpha], [beta] and [rc] with a number: Python reads these, *)
Theorem C128_known_partial : forall x y z o,
  semver (numbered x y z (tail_of o)) (with_pre x y z (ids_of o)) /\
  uploaded (numbered x y z (tail_of o)) = Some (plain x y z o).
Proof. exact known. Qed.
Print Assumptions C128_known_partial.
Example C128_known_case : numbered 0 12 3 (tail_of (Some (Beta, 10))) = lit "0.12.3-beta.10" /\ numbered 1 0 0 (tail_of None) = lit "1.0.0".
Proof. vm_compute. auto. Qed.

(** and in the order of SemVer. *)
Theorem C128_order_partial : forall x y z o x' y' z' o',
  precedes (with_pre x y z (ids_of o)) (with_pre x' y' z' (ids_of o')) <-> earlier (plain x y z o) (plain x' y' z' o').
Proof. exact same_order. Qed.
Print Assumptions C128_order_partial.
Example C128_order_case : earlier (plain 0 2 3 (Some (Beta, 9))) (plain 0 2 3 (Some (Beta, 10))) /\
  earlier (plain 0 2 3 (Some (Candidate, 10))) (plain 0 2 3 None) /\ ~ earlier (plain 0 2 3 None) (plain 0 2 3 (Some (Alpha, 1))).
Proof. rewrite !earlier_plain. cbn. intuition (try lia; try discriminate). Qed.

(** All words for pre-releases, in capitals or not, with a number or without, which is then 0. *)
Theorem C128_words_partial : forall x y z w p n, In (to_lowercase w, p) spelled ->
  uploaded (numbered x y z (lit "-" ++ w ++ lit "." ++ dec n)) = Some (plain x y z (Some (p, n))) /\
  uploaded (numbered x y z (lit "-" ++ w)) = Some (plain x y z (Some (p, 0))).
Proof. exact uploaded_word. Qed.
Print Assumptions C128_words_partial.
Example C128_words_case : In (to_lowercase (lit "PreView"), Candidate) spelled.
Proof. cbn. tauto. Qed.

(** The tag says the same as the version. *)
Theorem C128_tag_partial : forall x y z t, read_python (tag_of (numbered x y z t)) = read_python (numbered x y z t).
Proof. exact tag_same. Qed.
Print Assumptions C128_tag_partial.
Example C128_tag_case : read_python (lit "V0.3.0-Beta") = Some (plain 0 3 0 (Some (Beta, 0))).
Proof. vm_compute. reflexivity. Qed.

(** Not true of a number alone: it is behind the release for Python; *)
Theorem C128_number_refuted : forall x y z n,
  semver (numbered x y z (lit "-" ++ dec n)) (with_pre x y z [dec n]) /\
  precedes (with_pre x y z [dec n]) (with_pre x y z []) /\
  exists p q, uploaded (numbered x y z []) = Some p /\ uploaded (numbered x y z (lit "-" ++ dec n)) = Some q /\ earlier p q.
Proof. exact number_reversed. Qed.
Print Assumptions C128_number_refuted.
Example C128_number_case : uploaded (lit "1.2.3-4") = Some (Python 0 [1; 2; 3] None (Some 4) None []).
Proof. vm_compute. reflexivity. Qed.

(** nor of [post], [rev] and [r], *)
Theorem C128_post_refuted : forall x y z w n, In w spelled_post ->
  semver (numbered x y z (lit "-" ++ w ++ lit "." ++ dec n)) (with_pre x y z [w; dec n]) /\
  precedes (with_pre x y z [w; dec n]) (with_pre x y z []) /\
  exists p q, uploaded (numbered x y z []) = Some p /\ uploaded (numbered x y z (lit "-" ++ w ++ lit "." ++ dec n)) = Some q /\
    postrelease q = Some n /\ earlier p q.
Proof. exact post_reversed. Qed.
Print Assumptions C128_post_refuted.
Example C128_post_case : In (lit "rev") spelled_post.
Proof. cbn. tauto. Qed.

(** nor of [dev], which is before [alpha] and [beta] for Python; *)
Theorem C128_dev_refuted : forall x y z p m n, p <> Candidate ->
  semver (numbered x y z (lit "-dev." ++ dec n)) (with_pre x y z [lit "dev"; dec n]) /\
  precedes (with_pre x y z (ids_of (Some (p, m)))) (with_pre x y z [lit "dev"; dec n]) /\
  exists d, uploaded (numbered x y z (lit "-dev." ++ dec n)) = Some d /\ devrelease d = Some n /\
    earlier d (plain x y z (Some (p, m))).
Proof. exact dev_reversed. Qed.
Print Assumptions C128_dev_refuted.
Example C128_dev_case : uploaded (lit "0.3.0-dev.2") = Some (Python 0 [0; 3; 0] None None (Some 2) []) /\ Beta <> Candidate.
Proof. split; [vm_compute; reflexivity|discriminate]. Qed.

(** nor of [pre] and [rc]: two versions of SemVer are one of Python with the same number, and are in the other order if
    the number of the first is greater. *)
Theorem C128_candidates_refuted : forall x y z m n,
  semver (numbered x y z (lit "-pre." ++ dec m)) (with_pre x y z [lit "pre"; dec m]) /\
  semver (numbered x y z (lit "-rc." ++ dec n)) (with_pre x y z [lit "rc"; dec n]) /\
  precedes (with_pre x y z [lit "pre"; dec m]) (with_pre x y z [lit "rc"; dec n]) /\
  exists p q, uploaded (numbered x y z (lit "-pre." ++ dec m)) = Some p /\ uploaded (numbered x y z (lit "-rc." ++ dec n)) = Some q /\
    (p = q <-> m = n) /\ (earlier q p <-> n < m).
Proof. exact candidates. Qed.
Print Assumptions C128_candidates_refuted.
Example C128_candidates_case : uploaded (lit "0.3.0-pre.1") = uploaded (lit "0.3.0-rc.1").
Proof. vm_compute. reflexivity. Qed.

(** What begins otherwise behind the hyphen is no version of Python; *)
Theorem C128_unknown_refuted : forall x y z c t, ~ In (to_lower_c c) starters -> read_python (numbered x y z (lit "-" ++ c :: t)) = None.
Proof. exact other_words. Qed.
Print Assumptions C128_unknown_refuted.
Example C128_unknown_case : ~ In (to_lower_c 110%N) starters /\ numbered 1 2 3 (lit "-" ++ 110%N :: lit "ightly.5") = lit "1.2.3-nightly.5" /\
  semver (lit "1.2.3-nightly.5") (with_pre 1 2 3 [lit "nightly"; lit "5"]).
Proof. split; [cbn; intuition discriminate|]. split; [vm_compute; reflexivity|]. apply NumberFacts.versions. vm_compute. reflexivity. Qed.

(** Build metadata is read as a local version if it is one, *)
Theorem C128_local_partial : forall x y z l p,
  read_python (numbered x y z (lit "+" ++ l)) = Some p <->
  local_text (to_lowercase l) /\ p = Python 0 [x; y; z] None None None (to_lowercase l).
Proof. exact metadata_read. Qed.
Print Assumptions C128_local_partial.
Example C128_local_case : local_text (to_lowercase (lit "Build.5")) /\ read_python (lit "1.2.3+a--b") = None /\
  semver (lit "1.2.3+a--b") (with_pre 1 2 3 []).
Proof.
  split; [apply PythonFacts.local_iff; vm_compute; reflexivity|]. split; [vm_compute; reflexivity|].
  apply NumberFacts.versions. vm_compute. reflexivity.
Qed.

(** but PyPI takes no version with build metadata; *)
Theorem C128_metadata_refuted : forall s, In c_plus s -> uploaded s = None.
Proof. exact no_metadata. Qed.
Print Assumptions C128_metadata_refuted.
Example C128_metadata_case : semver (lit "1.2.3+4") (with_pre 1 2 3 []) /\ read_python (lit "1.2.3+4") = Some (Python 0 [1; 2; 3] None None None (lit "4")).
Proof. split; [apply NumberFacts.versions|]; vm_compute; reflexivity. Qed.

(** and a version that Python does not know stops the release before the npm package and the Python package: one leg of
    the matrix fails, on which both wait, while the packages of the platforms may be published already. *)
Theorem C128_stops_refuted : forall tree ext ok tag v,
  (forall b, ext b WheelsLinux = true -> read_python v <> None) -> read_python v = None ->
  base_packages_start tree ext ok tag = false.
Proof. exact not_started. Qed.
Print Assumptions C128_stops_refuted.
Example C128_stops_case : base_packages_start (fun _ => true) (fun _ s => match s with WheelsLinux => false | _ => true end) true (lit "v1.2.3-nightly.5") = false /\
  In ToNpm (fst (leg (fun _ => true) (fun _ s => match s with WheelsLinux => false | _ => true end) (lit "v1.2.3-nightly.5") (nth 0 matrix {| name := []; os := Ubuntu; npm_publish := true; pypi_publish := true |}))).
Proof. vm_compute. auto 20. Qed.
