(** * CiFacts: the tests that pass, and the tests that are run. *)
From Coq Require Import Ascii String.
From Verif Require Import Strings StringsFacts Parser Lexer LexMono Suite Ci Utf8 IterBytes SpecCi.
Open Scope list_scope.

Lemma none_selected : filter (contains (lit "smd")) all_tests = [].
Proof. vm_compute. reflexivity. Qed.

Lemma cargo_test_iff f run ts : cargo_test f run ts = true <->
  forall t, In t ts -> infix f t -> run t = true.
Proof.
  unfold cargo_test. rewrite forallb_forall. split.
  - intros H t T F. apply H, filter_In. split; [exact T|]. now apply contains_iff.
  - intros H t T. apply filter_In in T as [T F]. apply H; [exact T|]. now apply contains_iff.
Qed.
Lemma smd_runs_nothing run : cargo_test (lit "smd") run all_tests = true.
Proof. unfold cargo_test. now rewrite none_selected. Qed.

Lemma jobs_always run :
  main_job true true true run = true /\ forall t, coverage_job true t true run = true.
Proof.
  split; [|intros t].
  - unfold main_job. now rewrite smd_runs_nothing.
  - unfold coverage_job. now rewrite orb_true_r.
Qed.
Lemma jobs_exact fmt clippy builds install tarpaulin upload run :
  (main_job fmt clippy builds run = true <-> fmt = true /\ clippy = true /\ builds = true) /\
  (coverage_job install tarpaulin upload run = true <-> install = true /\ upload = true).
Proof.
  unfold main_job, coverage_job. rewrite smd_runs_nothing, orb_true_r, !andb_true_r, !andb_true_iff. tauto.
Qed.
Lemma some_test : In (lit "args::tests::verify_cli") all_tests.
Proof. apply in_or_app. right. unfold unit_tests. apply in_map. cbn. tauto. Qed.
Lemma no_guard : ~ guards (main_job true true true) /\ forall t, ~ guards (coverage_job true t true).
Proof.
  split; [|intros t]; intros G.
  - discriminate (G (fun _ => false) (proj1 (jobs_always _)) _ some_test).
  - discriminate (G (fun _ => false) (proj2 (jobs_always _) t) _ some_test).
Qed.
Lemma infix_nil (t : str) : infix [] t.
Proof. exists [], t. reflexivity. Qed.
Lemma unfiltered_guard : guards (fun run => cargo_test [] run all_tests).
Proof. intros run H t T. rewrite cargo_test_iff in H. apply (H t T), infix_nil. Qed.

(** The results of all examples, computed. *)
Definition member (e : example) (l : list (str * list str)) : bool :=
  existsb (fun p => str_eqb (module e) (fst p) && existsb (str_eqb (test e)) (snd p)) l.
Lemma member_iff e l : member e l = true <-> named e l.
Proof.
  unfold member, named. rewrite existsb_exists. split.
  - intros ([m ns] & H & E). cbn [fst snd] in E. apply andb_true_iff in E as [E1 E2].
    apply str_eqb_eq in E1. subst m. apply existsb_exists in E2 as (t & T & E2).
    apply str_eqb_eq in E2. subst t. eauto.
  - intros (ns & H & T). exists (module e, ns). split; [exact H|]. cbn [fst snd].
    apply andb_true_iff. split; [now apply str_eqb_eq|]. apply existsb_exists. exists (test e).
    split; [exact T | now apply str_eqb_eq].
Qed.
Definition as_listed (e : example) : bool :=
  match render 1000 (source e) with
  | Ret out => Bool.eqb (str_eqb out (expected e)) (member e passing)
  | _ => false
  end.
Lemma all_as_listed : forallb as_listed suite = true.
Proof. vm_compute. reflexivity. Qed.

Lemma listed_spec e : as_listed e = true ->
  (exists out, renders (source e) out) /\ (passes e <-> named e passing).
Proof.
  unfold as_listed. intros A. destruct (render 1000 (source e)) as [out| |] eqn:E; [|discriminate A..].
  assert (R : renders (source e) out) by (exists 1000; exact E). split; [now exists out|].
  apply eqb_prop in A. rewrite <- member_iff, <- A, str_eqb_eq. unfold passes. split.
  - intros P. exact (renders_unique _ _ _ R P).
  - intros <-. exact R.
Qed.
Lemma suite_listed e : In e suite -> as_listed e = true.
Proof. exact (proj1 (forallb_forall as_listed suite) all_as_listed e). Qed.
Lemma suite_ends e : In e suite -> exists out, renders (source e) out.
Proof. intros H. exact (proj1 (listed_spec e (suite_listed e H))). Qed.
Lemma suite_exact e : In e suite -> (passes e <-> named e passing).
Proof. intros H. exact (proj2 (listed_spec e (suite_listed e H))). Qed.

Definition fails_first : example := ex "atx_headings" "gfm_test_33_atx_heading_too_many_hashes"
    "####### foo" "<p>####### foo</p>\n".
Lemma suite_fails : exists e out, In e suite /\ renders (source e) out /\ out <> expected e.
Proof.
  exists fails_first, (lit "<p>#######foo</p>" ++ [c_nl]). split; [right; left; reflexivity|].
  split; [exists 1000; vm_compute; reflexivity|]. intros E. vm_compute in E. discriminate E.
Qed.

Lemma iter_tests_pass t : In t iter_tests -> exists it',
  b_run (asked t) (b_new (encode (text t))) =
    Ret (map (fun a => AText (option_map encode a)) (told t), it').
Proof.
  intros H. repeat (destruct H as [<-|H]; [eexists; vm_compute; reflexivity|]). destruct H.
Qed.

(** ** The tests of a renderer *)
Fixpoint nodupb (l : list str) : bool :=
  match l with [] => true | x :: l' => negb (existsb (str_eqb x) l') && nodupb l' end.
Lemma find_path l e : nodupb (map path l) = true -> In e l -> find (fun x => str_eqb (path e) (path x)) l = Some e.
Proof.
  induction l as [|x l IH]; [easy|]. cbn [map nodupb find]. intros H I. apply andb_true_iff in H as [H1 H2].
  destruct I as [->|I]; [now rewrite str_eqb_refl|].
  destruct (str_eqb (path e) (path x)) eqn:E; [|now apply IH].
  apply str_eqb_eq in E. apply negb_true_iff in H1. exfalso.
  assert (K : existsb (str_eqb (path x)) (map path l) = true); [|congruence].
  apply existsb_exists. exists (path e). split; [now apply in_map|]. now apply str_eqb_eq.
Qed.
Lemma paths_distinct : nodupb (map path suite) = true.
Proof. vm_compute. reflexivity. Qed.
Lemma paths_listed : forallb (fun e => existsb (str_eqb (path e)) all_tests) suite = true.
Proof. vm_compute. reflexivity. Qed.
Lemma results_exact r others e : In e suite ->
  (results r others (path e) = true <-> r (source e) = Some (expected e)).
Proof.
  intros I. unfold results. rewrite (find_path _ e paths_distinct I).
  destruct (r (source e)) as [o|]; [|split; discriminate]. rewrite str_eqb_eq. split; congruence.
Qed.
Lemma suite_checks r others : cargo_test [] (results r others) all_tests = true ->
  forall e, In e suite -> r (source e) = Some (expected e).
Proof.
  intros H e I. apply (results_exact r others e I). revert H. unfold cargo_test. rewrite forallb_forall. intros H. apply H.
  apply filter_In. split.
  - pose proof paths_listed as P. rewrite forallb_forall in P. specialize (P e I).
    apply existsb_exists in P as (t & T & E). apply str_eqb_eq in E. now subst t.
  - apply contains_iff. exists [], (path e). reflexivity.
Qed.
